(** Small library of bit facts over N used by the codec proofs. *)
From Coq Require Import NArith ZArith Lia Bool List Arith.
From Coq Require Import ZifyBool ZifyNat ZifyN.
Import ListNotations.
Ltac Zify.zify_post_hook ::= Z.div_mod_to_equations.
Local Open Scope N_scope.

Lemma N_sweep (k : N) (P : N -> bool) :
  forallb P (map N.of_nat (seq 0 (N.to_nat k))) = true -> forall n, n < k -> P n = true.
Proof.
  intros H n Hn. rewrite forallb_forall in H. apply H.
  rewrite in_map_iff. exists (N.to_nat n). split; [lia|].
  apply in_seq. lia.
Qed.

Lemma lor_shiftl_add acc x i : acc < 2 ^ i -> N.lor acc (N.shiftl x i) = acc + x * 2 ^ i.
Proof.
  intro H. rewrite N.shiftl_mul_pow2.
  rewrite <- (N.lxor_lor acc (x * 2 ^ i)).
  - symmetry. apply N.add_nocarry_lxor.
    apply N.bits_inj. intro n. rewrite N.land_spec, N.bits_0.
    destruct (N.lt_ge_cases n i) as [Hlt|Hge].
    + rewrite N.mul_pow2_bits_low by exact Hlt. apply andb_false_r.
    + replace (N.testbit acc n) with false; [reflexivity|].
      symmetry. destruct (N.eq_dec acc 0) as [->|Hz]; [apply N.bits_0|].
      apply N.bits_above_log2. apply N.lt_le_trans with i; [|exact Hge].
      apply N.log2_lt_pow2; lia.
  - apply N.bits_inj. intro n. rewrite N.land_spec, N.bits_0.
    destruct (N.lt_ge_cases n i) as [Hlt|Hge].
    + rewrite N.mul_pow2_bits_low by exact Hlt. apply andb_false_r.
    + replace (N.testbit acc n) with false; [reflexivity|].
      symmetry. destruct (N.eq_dec acc 0) as [->|Hz]; [apply N.bits_0|].
      apply N.bits_above_log2. apply N.lt_le_trans with i; [|exact Hge].
      apply N.log2_lt_pow2; lia.
Qed.

Lemma land_255 v : N.land v 255 = v mod 256.
Proof. change 255 with (N.ones 8). rewrite N.land_ones. reflexivity. Qed.

Lemma shiftr_7 v : N.shiftr v 7 = v / 128.
Proof. rewrite N.shiftr_div_pow2. reflexivity. Qed.
Lemma shiftr_8 v : N.shiftr v 8 = v / 256.
Proof. rewrite N.shiftr_div_pow2. reflexivity. Qed.

(* the low byte of a bitwise combination depends only on low bytes *)
Lemma land255_lor a b : N.land (N.lor a b) 255 = N.lor (N.land a 255) (N.land b 255).
Proof. apply N.land_lor_distr_l. Qed.

Lemma land255_ldiff a b : N.land (N.ldiff a b) 255 = N.ldiff (a mod 256) b.
Proof.
  rewrite <- land_255. apply N.bits_inj. intro n.
  rewrite N.land_spec, !N.ldiff_spec, N.land_spec.
  destruct (N.testbit a n), (N.testbit b n), (N.testbit 255 n); reflexivity.
Qed.

Lemma ldiff_128_byte v : v < 256 -> N.ldiff v 128 = v mod 128.
Proof.
  intro H. apply N.eqb_eq.
  apply (N_sweep 256 (fun v => N.ldiff v 128 =? v mod 128)); [vm_compute; reflexivity|exact H].
Qed.

Lemma lor_128_low x : x < 128 -> N.lor x 128 = x + 128.
Proof. intro H. change 128 with (N.shiftl 1 7) at 1. rewrite lor_shiftl_add by exact H. reflexivity. Qed.

Lemma cont_byte v : N.land (N.lor (N.ldiff v 128) 128) 255 = v mod 128 + 128.
Proof.
  rewrite land255_lor, land255_ldiff.
  rewrite ldiff_128_byte by (apply N.mod_lt; lia).
  change (N.land 128 255) with 128.
  rewrite lor_128_low by (apply N.mod_lt; lia).
  f_equal. lia.
Qed.

Lemma last_byte v : v < 128 -> N.land (N.lor (N.ldiff v 128) 0) 255 = v.
Proof.
  intro H. rewrite N.lor_0_r, land255_ldiff, ldiff_128_byte by (apply N.mod_lt; lia). lia.
Qed.

Lemma land_128_cont x : x < 128 -> (N.land (x + 128) 128 =? 0) = false.
Proof.
  intro H. apply negb_true_iff.
  apply (N_sweep 128 (fun x => negb (N.land (x + 128) 128 =? 0))); [vm_compute; reflexivity|exact H].
Qed.
Lemma land_128_last x : x < 128 -> (N.land x 128 =? 0) = true.
Proof.
  intro H.
  apply (N_sweep 128 (fun x => N.land x 128 =? 0)); [vm_compute; reflexivity|exact H].
Qed.
Lemma ldiff_cont x : x < 128 -> N.ldiff (x + 128) 128 = x.
Proof. intro H. rewrite ldiff_128_byte by lia. lia. Qed.
Lemma ldiff_last x : x < 128 -> N.ldiff x 128 = x.
Proof. intro H. rewrite ldiff_128_byte by lia. lia. Qed.

Lemma size_nat_pow v : v < 2 ^ N.of_nat (N.size_nat v).
Proof.
  destruct v as [|p]; [reflexivity|].
  assert (Hs : N.of_nat (N.size_nat (N.pos p)) = N.size (N.pos p)).
  { simpl. clear. induction p as [p IH|p IH|]; cbn [Pos.size_nat Pos.size]; lia. }
  rewrite Hs. apply N.size_gt.
Qed.

Lemma size_nat_pow7 v : v < 2 ^ (7 * N.of_nat (N.size_nat v)).
Proof.
  eapply N.lt_le_trans; [apply size_nat_pow|]. apply N.pow_le_mono_r; lia.
Qed.
