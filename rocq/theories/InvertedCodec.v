(** Proofs: the variable-byte paths of inverted search (C35). *)
From Coq Require Import NArith ZArith Lia Bool List Arith.
From Coq Require Import ZifyBool ZifyNat ZifyN.
From Verif Require Import Base Codec Inverted NBits.
Import ListNotations.
Ltac Zify.zify_post_hook ::= Z.div_mod_to_equations.
Local Open Scope N_scope.

Lemma land_127 v : N.land v 127 = v mod 128.
Proof. change 127 with (N.ones 7). rewrite N.land_ones. reflexivity. Qed.
Lemma encode_loop_S f v : encode_loop (S f) v = if v <? 128 then [v] else (v mod 128 + 128) :: encode_loop f (v / 128).
Proof.
  cbn [encode_loop]. destruct (N.ltb_spec v 128) as [H|H].
  - destruct (N.ltb_spec 0x7F v); [lia|]. rewrite N.mod_small by lia. reflexivity.
  - destruct (N.ltb_spec 0x7F v); [|lia]. change 0x7F with 127. rewrite land_127, shiftr_7, N.lor_comm. change 0x80 with 128. rewrite lor_128_low by (apply N.mod_lt; lia). reflexivity.
Qed.
Lemma decode_encode_loop f : forall v i acc k rest, (f < 5)%nat -> i = 7 * k -> k = 4 - N.of_nat f -> v < 2 ^ (32 - i) -> acc < 2 ^ i ->
  decode_loop f i acc (encode_loop (S f) v ++ rest) = Some (acc + v * 2 ^ i, rest).
Proof.
  induction f as [|f IH]; intros v i acc k rest Hf Hi Hk Hv Ha; rewrite encode_loop_S.
  - assert (i = 28) as -> by lia. change (2 ^ (32 - 28)) with 16 in Hv. destruct (N.ltb_spec v 128); [|lia]. cbn [app decode_loop]. change 0x7F with 127. rewrite land_127, (N.mod_small v 128) by lia.
    rewrite lor_shiftl_add by exact Ha. rewrite N.mod_small; [reflexivity|]. change (2 ^ 28) with 268435456 in *. change (2 ^ 32) with 4294967296. lia.
  - assert (Hm : acc + (v mod 128) * 2 ^ i < 2 ^ (i + 7)).
    { rewrite N.pow_add_r. change (2 ^ 7) with 128. assert (v mod 128 < 128) by (apply N.mod_lt; lia). nia. }
    assert (Hle : 2 ^ (i + 7) <= 2 ^ 32) by (apply N.pow_le_mono_r; lia).
    destruct (N.ltb_spec v 128) as [H|H].
    + rewrite (N.mod_small v 128) in Hm by exact H. cbn [app decode_loop]. change 0x7F with 127. change 0x80 with 128. rewrite land_127, (N.mod_small v 128), land_128_last by exact H. cbn [negb].
      rewrite lor_shiftl_add by exact Ha. rewrite N.mod_small by lia. reflexivity.
    + cbn [app decode_loop]. change 0x7F with 127. change 0x80 with 128. rewrite land_127, land_128_cont by (apply N.mod_lt; lia). cbn [negb].
      replace ((v mod 128 + 128) mod 128) with (v mod 128) by (rewrite <- N.add_mod_idemp_r by lia; rewrite N.mod_same by lia; rewrite N.add_0_r; rewrite N.mod_mod by lia; reflexivity).
      rewrite lor_shiftl_add by exact Ha. rewrite (N.mod_small _ (2 ^ 32)) by lia. rewrite (IH (v / 128) (i + 7) _ (k + 1)); try lia.
      * f_equal. f_equal. rewrite N.pow_add_r. change (2 ^ 7) with 128. assert (v = 128 * (v / 128) + v mod 128) by (apply N.div_mod; lia). set (q := v / 128) in *. set (m := v mod 128) in *. set (e := 2 ^ i) in *. clearbody q m e. nia.
      * apply N.div_lt_upper_bound; [lia|]. replace (32 - i) with (7 + (32 - (i + 7))) in Hv by lia. rewrite N.pow_add_r in Hv. exact Hv.
Qed.
Lemma decode_encode v rest : v < 2 ^ 32 -> decode_varbyte (encode_varbyte v ++ rest) = Some (v, rest).
Proof.
  intro H. unfold decode_varbyte, encode_varbyte. rewrite N.mod_small by exact H. rewrite (decode_encode_loop 4 v 0 0 0); try lia; [|exact H]. f_equal. f_equal. change (2 ^ 0) with 1. lia.
Qed.
Lemma encode_nonempty v : encode_varbyte v <> [].
Proof. unfold encode_varbyte. rewrite encode_loop_S. destruct (_ <? _); discriminate. Qed.

(** The second number of a step. *)
Lemma sumVal_spec s b : (Z.abs s < 2 ^ 29)%Z ->
  sumVal s b < 2 ^ 32 /\ N.land (sumVal s b) 1 = (if b then 1 else 0) /\ (N.land (sumVal s b) 2 =? 0) = negb (s <? 0)%Z /\ N.shiftr (sumVal s b) 2 = Z.abs_N s.
Proof.
  intro H. set (a := Z.abs_N s). assert (Ha : a < 2 ^ 29) by (unfold a; lia). set (n := (s <? 0)%Z).
  assert (E : sumVal s b = 4 * a + (if n then 2 else 0) + (if b then 1 else 0)).
  { unfold sumVal. fold a n. rewrite N.shiftl_mul_pow2. change (2 ^ 2) with 4. change (2 ^ 29) with 536870912 in Ha. rewrite N.mod_small by (change (2 ^ 32) with 4294967296; lia).
    assert (L : forall x y, y < 4 -> N.lor (x * 4) y = x * 4 + y).
    { intros x y Hy. rewrite N.lor_comm. replace (x * 4) with (N.shiftl x 2) by (rewrite N.shiftl_mul_pow2; reflexivity). rewrite (lor_shiftl_add y x 2 Hy). change (2 ^ 2) with 4. rewrite N.shiftl_mul_pow2. change (2 ^ 2) with 4. lia. }
    destruct n, b; cbn zeta; rewrite ?L by lia; try lia. rewrite <- (L a 2) by lia. rewrite <- N.lor_assoc. change (N.lor 2 1) with 3. rewrite L by lia. lia. }
  rewrite E. clearbody a n. split; [change (2 ^ 29) with 536870912 in Ha; change (2 ^ 32) with 4294967296; destruct n, b; lia|]. clear E H. split; [|split].
  - match goal with |- N.land ?x 1 = _ => change (N.land x 1) with (N.land x (N.ones 1)) end. rewrite N.land_ones. change (2 ^ 1) with 2. destruct n, b; lia.
  - assert (T : N.land (4 * a + (if n then 2 else 0) + (if b then 1 else 0)) 2 = if n then 2 else 0).
    { match goal with |- N.land ?x 2 = _ => change (N.land x 2) with (N.land x (N.shiftl 1 1)) end. apply N.bits_inj. intro i. rewrite N.land_spec.
      destruct (N.eq_dec i 1) as [->|Hi].
      - rewrite N.testbit_eqb. change (2 ^ 1) with 2. replace ((4 * a + (if n then 2 else 0) + (if b then 1 else 0)) / 2) with (2 * a + (if n then 1 else 0)) by (destruct n, b; lia).
        destruct n.
        + replace ((2 * a + 1) mod 2) with 1 by lia. reflexivity.
        + replace ((2 * a + 0) mod 2) with 0 by lia. reflexivity.
      - rewrite N.shiftl_1_l. rewrite N.pow2_bits_false by lia. rewrite andb_false_r. destruct n; [|symmetry; apply N.bits_0]. change 2 with (2 ^ 1). symmetry. apply N.pow2_bits_false. lia. }
    rewrite T. destruct n; reflexivity.
  - rewrite N.shiftr_div_pow2. change (2 ^ 2) with 4. destruct n, b; lia.
Qed.
