(** Proofs for word positions. *)
From Verif Require Import Base Ord OrdProof Codec NBits PosCodec PosSpec.
From Coq Require Import NArith ZArith Lia List Bool Arith.
From Coq Require Import ZifyBool ZifyNat ZifyN.
Import ListNotations.
Ltac Zify.zify_post_hook ::= Z.div_mod_to_equations.
Local Open Scope N_scope.

Lemma getpos_position p : WEP_GETPOS p = position p.
Proof. unfold WEP_GETPOS, position. change 0x3FFF with (N.ones 14). rewrite N.land_ones. reflexivity. Qed.
Lemma getweight_weight p : WEP_GETWEIGHT p = weight p.
Proof. unfold WEP_GETWEIGHT, weight. rewrite N.shiftr_div_pow2. reflexivity. Qed.
Lemma setweight_add p w : WEP_SETWEIGHT p w = position p + w * 16384.
Proof.
  unfold WEP_SETWEIGHT. rewrite N.lor_comm. change (N.land p 0x3FFF) with (WEP_GETPOS p). rewrite getpos_position.
  rewrite lor_shiftl_add; [reflexivity|]. unfold position. change (2 ^ 14) with 16384. lia.
Qed.
Lemma sub16_le a b : b <= a -> a < 65536 -> sub16 a b = a - b.
Proof. intros H H1. unfold sub16. change (2 ^ 16) with 65536. lia. Qed.

Definition pos_bytes (d w : N) : list byte :=
  if d <? 32 then [d + 32 * w]
  else if d <? 4096 then [d mod 128 + 128; d / 128 + 32 * w]
  else [d mod 128 + 128; (d / 128) mod 128 + 128; 32 * w].

Lemma last_pos_byte d w : d < 32 -> w < 4 -> to_byte (N.lor d (N.shiftl w 5)) = d + 32 * w.
Proof.
  intros Hd Hw. rewrite lor_shiftl_add by (change (2 ^ 5) with 32; exact Hd). unfold to_byte.
  rewrite land_255. change (2 ^ 5) with 32. lia.
Qed.
Lemma cont_pos_byte d : to_byte (N.lor (N.ldiff d HIGHBIT) HIGHBIT) = d mod 128 + 128.
Proof. apply cont_byte. Qed.
Lemma compress_one_small f d w : d < 32 -> w < 4 -> compress_one (S f) d w = [d + 32 * w].
Proof.
  intros Hd Hw. cbn [compress_one]. unfold SIXTHBIT. destruct (N.leb_spec 32 d); [lia|].
  rewrite last_pos_byte by assumption. reflexivity.
Qed.
Lemma compress_one_step f d w : 32 <= d -> compress_one (S f) d w = (d mod 128 + 128) :: compress_one f (d / 128) w.
Proof.
  intros Hd. cbn [compress_one]. unfold SIXTHBIT. destruct (N.leb_spec 32 d); [|lia].
  rewrite cont_pos_byte, shiftr_7. reflexivity.
Qed.
Lemma compress_one_bytes d w : d < 16384 -> w < 4 -> compress_one (S (N.size_nat d)) d w = pos_bytes d w.
Proof.
  intros Hd Hw. unfold pos_bytes. destruct (N.ltb_spec d 32); [apply compress_one_small; assumption|].
  assert (Hs : (2 <= N.size_nat d)%nat).
  { destruct (Nat.le_gt_cases 2 (N.size_nat d)) as [|G]; [assumption|].
    pose proof (size_nat_pow d) as P. assert (2 ^ N.of_nat (N.size_nat d) <= 2 ^ 1) by (apply N.pow_le_mono_r; lia).
    change (2 ^ 1) with 2 in *. lia. }
  destruct (N.size_nat d) as [|[|n]]; try lia.
  rewrite compress_one_step by assumption. destruct (N.ltb_spec d 4096).
  - rewrite compress_one_small by lia. reflexivity.
  - rewrite compress_one_step by lia. rewrite compress_one_small by lia. do 2 f_equal. f_equal. lia.
Qed.

Lemma last_byte_read x w : x < 32 -> w < 4 ->
  (N.land (x + 32 * w) HIGHBIT =? 0) = true /\ N.land (x + 32 * w) LOWERMASK = x /\ N.shiftr (x + 32 * w) 5 = w.
Proof.
  intros Hx Hw. split; [apply land_128_last; lia|]. split.
  - unfold LOWERMASK. change 0x1F with (N.ones 5). rewrite N.land_ones. change (2 ^ 5) with 32. lia.
  - rewrite N.shiftr_div_pow2. change (2 ^ 5) with 32. lia.
Qed.
Lemma cont_byte_read x : x < 128 -> (N.land (x + 128) HIGHBIT =? 0) = false /\ N.ldiff (x + 128) HIGHBIT = x.
Proof. intro H. split; [apply land_128_cont; exact H|apply ldiff_cont; exact H]. Qed.
Lemma land16 v : v < 65536 -> N.land v 0xFFFF = v.
Proof. intro H. change 0xFFFF with (N.ones 16). rewrite N.land_ones. change (2 ^ 16) with 65536. apply N.mod_small. exact H. Qed.

Lemma step_last x w r i acc p : i < 25 -> x < 32 -> w < 4 -> acc < 2 ^ i -> acc + x * 2 ^ i < 65536 ->
  decompress_loop ((x + 32 * w) :: r) i acc p = Some (position (p + (acc + x * 2 ^ i)) + w * 16384, r).
Proof.
  intros Hi Hx Hw Ha Hs. cbn [decompress_loop]. destruct (last_byte_read x w Hx Hw) as (E1 & E2 & E3).
  destruct (N.ltb_spec i 25); [|lia]. rewrite E1, E2, E3, lor_shiftl_add by assumption. rewrite land16 by assumption.
  rewrite setweight_add. unfold position. change (2 ^ 16) with 65536. do 2 f_equal. f_equal. lia.
Qed.
Lemma step_cont x r i acc p : i < 25 -> x < 128 -> acc < 2 ^ i -> acc + x * 2 ^ i < 65536 ->
  decompress_loop ((x + 128) :: r) i acc p = decompress_loop r (i + 7) (acc + x * 2 ^ i) p.
Proof.
  intros Hi Hx Ha Hs. cbn [decompress_loop]. destruct (cont_byte_read x Hx) as (E1 & E2).
  destruct (N.ltb_spec i 25); [|lia]. rewrite E1, E2, lor_shiftl_add by assumption. rewrite land16 by assumption. reflexivity.
Qed.
Lemma decompress_bytes d w r p : d < 16384 -> w < 4 ->
  decompress_pos (pos_bytes d w ++ r) p = Some (position (p + d) + w * 16384, r).
Proof.
  intros Hd Hw. unfold decompress_pos, pos_bytes. destruct (N.ltb_spec d 32).
  { cbn [app]. rewrite step_last by (try change (2 ^ 0) with 1; lia). change (2 ^ 0) with 1. do 4 f_equal; lia. }
  destruct (N.ltb_spec d 4096); cbn [app].
  - rewrite step_cont by (try change (2 ^ 0) with 1; lia). change (2 ^ 0) with 1.
    rewrite step_last by (try change (2 ^ (0 + 7)) with 128; lia). change (2 ^ (0 + 7)) with 128. do 4 f_equal. lia.
  - rewrite step_cont by (try change (2 ^ 0) with 1; lia). change (2 ^ 0) with 1.
    rewrite step_cont by (try change (2 ^ (0 + 7)) with 128; lia). change (2 ^ (0 + 7)) with 128.
    change (32 * w) with (0 + 32 * w). rewrite step_last by (try change (2 ^ (0 + 7 + 7)) with 16384; lia). change (2 ^ (0 + 7 + 7)) with 16384.
    do 4 f_equal. lia.
Qed.

Definition posr (q : N) (l : list N) : Prop := Forall (fun p => p < 65536) l /\ StronglySorted (fun p q => position p < position q) (q :: l).
Lemma pos_delta q p : p < 65536 -> position q <= position p ->
  let d := sub16 (WEP_GETPOS p) (WEP_GETPOS q) in
  d < 16384 /\ WEP_GETWEIGHT p < 4 /\ position (q + d) + WEP_GETWEIGHT p * 16384 = p.
Proof.
  intros Hp Hq. cbn zeta. rewrite !getpos_position, getweight_weight. unfold weight.
  assert (position p < 16384) by (unfold position; lia). rewrite sub16_le by lia.
  split; [lia|]. split; [lia|]. unfold position in *. lia.
Qed.
Lemma compress_cons q p l : compress_loop q (p :: l) =
  compress_one (S (N.size_nat (sub16 (WEP_GETPOS p) (WEP_GETPOS q)))) (sub16 (WEP_GETPOS p) (WEP_GETPOS q)) (WEP_GETWEIGHT p) ++ compress_loop p l.
Proof. reflexivity. Qed.
Lemma decompress_compress q p l : p < 65536 -> position q <= position p ->
  decompress_pos (compress_loop q (p :: l)) q = Some (p, compress_loop p l).
Proof.
  intros Hp Hq. rewrite compress_cons. destruct (pos_delta q p Hp Hq) as (H1 & H2 & H3).
  rewrite compress_one_bytes by assumption. rewrite decompress_bytes by assumption. rewrite H3. reflexivity.
Qed.
Lemma count_app a b : count_pos (a ++ b) = (count_pos a + count_pos b)%nat.
Proof. unfold count_pos. rewrite filter_app, app_length. reflexivity. Qed.
Lemma count_bytes d w : d < 16384 -> w < 4 -> count_pos (pos_bytes d w) = 1%nat.
Proof.
  intros Hd Hw. unfold count_pos, pos_bytes. destruct (N.ltb_spec d 32).
  { cbn [filter]. rewrite (proj1 (last_byte_read d w ltac:(lia) Hw)). reflexivity. }
  destruct (N.ltb_spec d 4096); cbn [filter].
  - rewrite (proj1 (cont_byte_read (d mod 128) ltac:(lia))). rewrite (proj1 (last_byte_read (d / 128) w ltac:(lia) Hw)). reflexivity.
  - rewrite (proj1 (cont_byte_read (d mod 128) ltac:(lia))). rewrite (proj1 (cont_byte_read ((d / 128) mod 128) ltac:(lia))).
    change (32 * w) with (0 + 32 * w). rewrite (proj1 (last_byte_read 0 w ltac:(lia) Hw)). reflexivity.
Qed.
Lemma len_bytes d w : (length (pos_bytes d w) <= 3)%nat.
Proof. unfold pos_bytes. destruct (d <? 32), (d <? 4096); simpl; lia. Qed.

(** ascending from [q], where [q] may equal the first position *)
Definition asc (q : N) (l : list N) : Prop :=
  pos_list l /\ match l with [] => True | p :: _ => position q <= position p end.
Lemma asc_next q p l : asc q (p :: l) -> p < 65536 /\ position q <= position p /\ asc p l.
Proof.
  intros [[Hf Hs] Hq]. apply Forall_cons_iff in Hf as [Hp Hf]. inversion Hs; subst. repeat split; auto.
  destruct l as [|p' l]; [exact I|]. apply Forall_cons_iff in H2 as [H2 _]. lia.
Qed.
Lemma count_loop l : forall q, asc q l -> count_pos (compress_loop q l) = length l.
Proof.
  induction l as [|p l IH]; intros q H; [reflexivity|]. apply asc_next in H as (Hp & Hq & H).
  rewrite compress_cons, count_app. destruct (pos_delta q p Hp Hq) as (H1 & H2 & _).
  rewrite compress_one_bytes by assumption. rewrite count_bytes by assumption. rewrite (IH p H). reflexivity.
Qed.
Lemma len_loop l : forall q, asc q l -> (length (compress_loop q l) <= 3 * length l)%nat.
Proof.
  induction l as [|p l IH]; intros q H; [simpl; lia|]. apply asc_next in H as (Hp & Hq & H).
  rewrite compress_cons, app_length. destruct (pos_delta q p Hp Hq) as (H1 & H2 & _).
  rewrite compress_one_bytes by assumption. pose proof (len_bytes (sub16 (WEP_GETPOS p) (WEP_GETPOS q)) (WEP_GETWEIGHT p)).
  specialize (IH p H). simpl. lia.
Qed.
Lemma read_loop l : forall q, asc q l -> decompress_n (length l) (compress_loop q l) q = Some l.
Proof.
  induction l as [|p l IH]; intros q H; [reflexivity|]. apply asc_next in H as (Hp & Hq & H).
  cbn [length decompress_n]. rewrite decompress_compress by assumption. rewrite (IH p H). reflexivity.
Qed.
Lemma asc0 l : pos_list l -> asc 0 l.
Proof. intro H. split; [exact H|]. destruct l; [exact I|]. unfold position. lia. Qed.
Lemma byte_last d w : d < 16384 -> w < 4 -> exists l b, pos_bytes d w = l ++ [b] /\ N.land b HIGHBIT = 0.
Proof.
  intros Hd Hw. unfold pos_bytes. destruct (N.ltb_spec d 32).
  { exists [], (d + 32 * w). split; [reflexivity|]. apply N.eqb_eq. apply last_byte_read; lia. }
  destruct (N.ltb_spec d 4096).
  - exists [d mod 128 + 128], (d / 128 + 32 * w). split; [reflexivity|]. apply N.eqb_eq. apply last_byte_read; lia.
  - exists [d mod 128 + 128; (d / 128) mod 128 + 128], (32 * w). split; [reflexivity|]. apply N.eqb_eq.
    change (32 * w) with (0 + 32 * w). apply last_byte_read; lia.
Qed.

Lemma pos_roundtrip l : pos_list l ->
  read_positions (compress_pos l) = Some l /\ count_pos (compress_pos l) = length l /\
  (length (compress_pos l) <= 3 * length l)%nat /\ Forall (fun b => b < 256) (compress_pos l).
Proof.
  intro H. pose proof (asc0 l H) as HA. unfold read_positions, compress_pos. rewrite (count_loop l 0 HA).
  split; [apply read_loop; exact HA|]. split; [reflexivity|]. split; [apply len_loop; exact HA|].
  clear H. revert HA. generalize 0. induction l as [|p l IH]; intros q H; [constructor|]. apply asc_next in H as (Hp & Hq & H).
  rewrite compress_cons. apply Forall_app. split; [|apply IH; exact H].
  destruct (pos_delta q p Hp Hq) as (H1 & H2 & _). rewrite compress_one_bytes by assumption.
  unfold pos_bytes. destruct (N.ltb_spec (sub16 (WEP_GETPOS p) (WEP_GETPOS q)) 32).
  - repeat constructor; lia.
  - destruct (N.ltb_spec (sub16 (WEP_GETPOS p) (WEP_GETPOS q)) 4096); repeat constructor; lia.
Qed.

(** ** join *)
Definition pcmp (a b : N) : Z := Z.of_N (position a) - Z.of_N (position b).
Lemma pcmp_total : total_cmp pcmp.
Proof. unfold pcmp. split; intros; lia. Qed.
(* same as rumMergeRumItems with the roles exchanged: a tie keeps the first list's entry *)
Definition jmerge (l1 l2 : list N) : list N := rumMergeRumItems pcmp l2 l1.
Lemma jmerge_cons p1 t1 p2 t2 : jmerge (p1 :: t1) (p2 :: t2) =
  if position p2 <? position p1 then p2 :: jmerge (p1 :: t1) t2
  else if position p1 <? position p2 then p1 :: jmerge t1 (p2 :: t2)
  else p1 :: jmerge t1 t2.
Proof.
  unfold jmerge. rewrite merge_cons. assert (E : pcmp p2 p1 = (Z.of_N (position p2) - Z.of_N (position p1))%Z) by reflexivity.
  destruct (N.ltb_spec (position p2) (position p1)), (N.ltb_spec (position p1) (position p2)),
    (Z.ltb_spec 0 (pcmp p2 p1)), (Z.eqb_spec (pcmp p2 p1) 0); try reflexivity; lia.
Qed.
(** input [s] of [c] positions still holds [l] *)
Definition holds (c : nat) (s : jside) (l : list N) : Prop :=
  match l with
  | [] => (j_i s = c)%nat
  | p :: t => j_pos s = p /\ j_in s = compress_loop p t /\ (j_i s + length l = c)%nat /\ asc p t
  end.
Lemma jnext_holds c s p t : holds c s (p :: t) -> t <> [] -> exists s', jnext s = Some s' /\ holds c s' t.
Proof.
  intros (H1 & H2 & H3 & H4) Ht. destruct t as [|p' t]; [congruence|]. unfold jnext.
  apply asc_next in H4 as (Hp & Hq & H4). rewrite H2, H1, decompress_compress by assumption.
  eexists. split; [reflexivity|]. cbn. repeat split; auto; try apply H4. simpl in H3. lia.
Qed.
Lemma jstop_holds c s p : holds c s [p] -> holds c (jstop s) [].
Proof. intros (_ & _ & H & _). cbn in *. lia. Qed.
Lemma holds_last c s p t : holds c s (p :: t) -> ((c <=? S (j_i s))%nat = true <-> t = []).
Proof.
  intros (_ & _ & H & _). rewrite Nat.leb_le. destruct t as [|x t]; cbn [length] in H; split; intro; try congruence; try reflexivity; lia.
Qed.
Lemma join_loop_spec fuel : forall c1 c2 s1 s2 p1 t1 p2 t2 out,
  holds c1 s1 (p1 :: t1) -> holds c2 s2 (p2 :: t2) -> (length t1 + length t2 + 1 < S fuel)%nat ->
  exists s1' s2' l1 l2 o, join_loop fuel c1 c2 s1 s2 out = Some (s1', s2', out ++ o) /\
    holds c1 s1' l1 /\ holds c2 s2' l2 /\ (l1 = [] \/ l2 = []) /\ jmerge (p1 :: t1) (p2 :: t2) = o ++ jmerge l1 l2.
Proof.
  induction fuel as [|f IH]; intros c1 c2 s1 s2 p1 t1 p2 t2 out H1 H2 Hf; [lia|].
  cbn [join_loop]. rewrite !getpos_position, (proj1 H1), (proj1 H2), jmerge_cons.
  destruct (N.ltb_spec (position p2) (position p1)) as [L|L].
  - destruct (c2 <=? S (j_i s2))%nat eqn:E.
    + apply (holds_last _ _ _ _ H2) in E. subst t2. exists s1, (jstop s2), (p1 :: t1), [], [p2].
      split; [reflexivity|]. split; [exact H1|]. split; [apply (jstop_holds _ _ p2); exact H2|]. split; [auto|]. reflexivity.
    + assert (Ht : t2 <> []) by (intro Ht; apply (holds_last _ _ _ _ H2) in Ht; congruence).
      destruct (jnext_holds _ _ _ _ H2 Ht) as (s2' & E' & H2'). rewrite E'. destruct t2 as [|p2' t2]; [congruence|].
      destruct (IH c1 c2 s1 s2' p1 t1 p2' t2 (out ++ [p2]) H1 H2' ltac:(simpl in *; lia)) as (a & b & l1 & l2 & o & Ej & A & B & C & D).
      exists a, b, l1, l2, (p2 :: o). rewrite Ej, <- app_assoc. repeat split; auto. rewrite D. reflexivity.
  - destruct (N.ltb_spec (position p1) (position p2)) as [L2|L2].
    + destruct (c1 <=? S (j_i s1))%nat eqn:E.
      * apply (holds_last _ _ _ _ H1) in E. subst t1. exists (jstop s1), s2, [], (p2 :: t2), [p1].
        split; [reflexivity|]. split; [apply (jstop_holds _ _ p1); exact H1|]. split; [exact H2|]. split; [auto|]. reflexivity.
      * assert (Ht : t1 <> []) by (intro Ht; apply (holds_last _ _ _ _ H1) in Ht; congruence).
        destruct (jnext_holds _ _ _ _ H1 Ht) as (s1' & E' & H1'). rewrite E'. destruct t1 as [|p1' t1]; [congruence|].
        destruct (IH c1 c2 s1' s2 p1' t1 p2 t2 (out ++ [p1]) H1' H2 ltac:(simpl in *; lia)) as (a & b & l1 & l2 & o & Ej & A & B & C & D).
        exists a, b, l1, l2, (p1 :: o). rewrite Ej, <- app_assoc. repeat split; auto. rewrite D. reflexivity.
    + assert (K : forall c s p t, holds c s (p :: t) -> exists s', (if (S (j_i s) <? c)%nat then jnext s else Some (jstop s)) = Some s' /\ holds c s' t /\
         ((c <=? j_i s')%nat = true <-> t = [])).
      { intros c s p t H. destruct (Nat.ltb_spec (S (j_i s)) c) as [Q|Q].
        - assert (Ht : t <> []) by (intro Ht; apply (holds_last _ _ _ _ H) in Ht; apply Nat.leb_le in Ht; lia).
          destruct (jnext_holds _ _ _ _ H Ht) as (s' & E' & H'). exists s'. split; [exact E'|]. split; [exact H'|].
          destruct t as [|x t]; [congruence|]. destruct H' as (_ & _ & H' & _). simpl in H'. rewrite Nat.leb_le. split; [lia|discriminate].
        - assert (Ht : t = []) by (apply (holds_last _ _ _ _ H); apply Nat.leb_le; lia). subst t.
          exists (jstop s). split; [reflexivity|]. split; [apply (jstop_holds _ _ p); exact H|].
          pose proof (jstop_holds _ _ p H) as Hs. cbn in Hs. cbn [jstop j_i]. rewrite Nat.leb_le. split; [reflexivity|lia]. }
      destruct (K _ _ _ _ H1) as (s1' & E1 & H1' & Q1). destruct (K _ _ _ _ H2) as (s2' & E2 & H2' & Q2). rewrite E1, E2.
      destruct ((c2 <=? j_i s2')%nat || (c1 <=? j_i s1')%nat) eqn:Eor.
      * exists s1', s2', t1, t2, [p1]. split; [reflexivity|]. split; [exact H1'|]. split; [exact H2'|]. split; [|reflexivity].
        apply orb_true_iff in Eor as [Eor|Eor]; [right; apply Q2; exact Eor|left; apply Q1; exact Eor].
      * apply orb_false_iff in Eor as [Eo2 Eo1]. destruct t1 as [|p1' t1]; [destruct Q1 as [_ Q1]; specialize (Q1 eq_refl); congruence|].
        destruct t2 as [|p2' t2]; [destruct Q2 as [_ Q2]; specialize (Q2 eq_refl); congruence|].
        destruct (IH c1 c2 s1' s2' p1' t1 p2' t2 (out ++ [p1]) H1' H2' ltac:(simpl in *; lia)) as (a & b & l1 & l2 & o & Ej & A & B & C & D).
        exists a, b, l1, l2, (p1 :: o). rewrite Ej, <- app_assoc. repeat split; auto. rewrite D. reflexivity.
Qed.
Lemma drain_spec fuel : forall c s p t out, holds c s (p :: t) -> (length t < fuel)%nat -> drain fuel c s out = Some (out ++ p :: t).
Proof.
  induction fuel as [|f IH]; intros c s p t out H Hf; [lia|]. cbn [drain]. rewrite (proj1 H).
  destruct (c <=? S (j_i s))%nat eqn:E.
  - apply (holds_last _ _ _ _ H) in E. subst t. reflexivity.
  - assert (Ht : t <> []) by (intro Ht; apply (holds_last _ _ _ _ H) in Ht; congruence).
    destruct (jnext_holds _ _ _ _ H Ht) as (s' & E' & H'). rewrite E'. destruct t as [|p' t]; [congruence|].
    rewrite (IH c s' p' t _ H') by (simpl in Hf; lia). rewrite <- app_assoc. reflexivity.
Qed.
Lemma holds_more c s l : holds c s l -> ((j_i s <? c)%nat = true <-> l <> []).
Proof.
  intro H. rewrite Nat.ltb_lt. destruct l as [|p t]; cbn in H; [split; [lia|congruence]|].
  destruct H as (_ & _ & H & _). split; [discriminate|lia].
Qed.
Lemma join_merge l1 l2 : pos_list l1 -> pos_list l2 -> l1 <> [] -> l2 <> [] ->
  rum_ts_join_pos (compress_pos l1) (compress_pos l2) = Some (compress_pos (jmerge l1 l2)).
Proof.
  intros H1 H2 N1 N2. unfold rum_ts_join_pos, compress_pos.
  rewrite (count_loop l1 0 (asc0 _ H1)), (count_loop l2 0 (asc0 _ H2)).
  destruct l1 as [|p1 t1]; [congruence|]. destruct l2 as [|p2 t2]; [congruence|].
  pose proof (asc0 _ H1) as A1. pose proof (asc0 _ H2) as A2. apply asc_next in A1 as (P1 & Q1 & A1). apply asc_next in A2 as (P2 & Q2 & A2).
  rewrite !decompress_compress by assumption.
  destruct (join_loop_spec (length (p1 :: t1) + length (p2 :: t2)) (length (p1 :: t1)) (length (p2 :: t2))
    (mkJ (compress_loop p1 t1) p1 0) (mkJ (compress_loop p2 t2) p2 0) p1 t1 p2 t2 []) as (a & b & l1 & l2 & o & Ej & A & B & C & D).
  { cbn. repeat split; try reflexivity; apply A1. }
  { cbn. repeat split; try reflexivity; apply A2. }
  { simpl. lia. }
  rewrite Ej. cbn [app]. rewrite D.
  destruct (j_i a <? length (p1 :: t1))%nat eqn:Ea.
  - apply (holds_more _ _ _ A) in Ea. destruct l1 as [|x l1]; [congruence|]. destruct C as [C|C]; [discriminate|]. subst l2.
    rewrite (drain_spec _ _ _ x l1 o A) by (destruct A as (_ & _ & A & _); simpl in *; lia). reflexivity.
  - assert (l1 = []) as ->.
    { destruct l1 as [|x l1]; [reflexivity|]. assert (x :: l1 <> []) by discriminate. apply (holds_more _ _ _ A) in H. congruence. }
    destruct (j_i b <? length (p2 :: t2))%nat eqn:Eb.
    + apply (holds_more _ _ _ B) in Eb. destruct l2 as [|x l2]; [congruence|].
      rewrite (drain_spec _ _ _ x l2 o B) by (destruct B as (_ & _ & B & _); simpl in *; lia). unfold jmerge. rewrite merge_nil_r. reflexivity.
    + assert (l2 = []) as ->.
      { destruct l2 as [|x l2]; [reflexivity|]. assert (x :: l2 <> []) by discriminate. apply (holds_more _ _ _ B) in H. congruence. }
      unfold jmerge. rewrite merge_nil_r, app_nil_r. reflexivity.
Qed.
Lemma ssorted_pos l : StronglySorted (fun p q => position p < position q) l <-> ssorted pcmp l.
Proof.
  unfold ssorted. induction l as [|a l IH]; [split; constructor|]. split; intro H; inversion H; subst; constructor; try (apply IH; assumption);
    (eapply Forall_impl; [|eassumption]); intros b Hb; unfold pcmp in *; lia.
Qed.
Lemma join_spec l1 l2 : pos_list l1 -> pos_list l2 -> l1 <> [] -> l2 <> [] ->
  exists bytes l, rum_ts_join_pos (compress_pos l1) (compress_pos l2) = Some bytes /\
    read_positions bytes = Some l /\ pos_list l /\ (length bytes <= 4 * length l)%nat /\
    forall p, In p l <-> In p l1 \/ (In p l2 /\ forall q, In q l1 -> position q <> position p).
Proof.
  intros H1 H2 N1 N2. exists (compress_pos (jmerge l1 l2)), (jmerge l1 l2). split; [apply join_merge; assumption|].
  assert (S1 := proj1 (ssorted_pos _) (proj2 H1)). assert (S2 := proj1 (ssorted_pos _) (proj2 H2)).
  assert (HS : ssorted pcmp (jmerge l1 l2)) by (apply merge_sorted; [apply pcmp_total|assumption|assumption]).
  assert (HL : pos_list (jmerge l1 l2)).
  { split; [|apply ssorted_pos; exact HS]. apply Forall_forall. intros p Hp. apply merge_incl in Hp.
    destruct H1 as [H1 _], H2 as [H2 _]. rewrite Forall_forall in H1, H2. destruct Hp; auto. }
  destruct (pos_roundtrip _ HL) as (R & _ & L & _). split; [exact R|]. split; [exact HL|]. split; [lia|]. intro p. split.
  - intro Hp. destruct (in_dec N.eq_dec p l1) as [|Hn]; [auto|]. right. split.
    + apply merge_incl in Hp. destruct Hp; [assumption|contradiction].
    + intros q Hq E. apply Hn. assert (Hq' : In q (jmerge l1 l2)) by (apply merge_keeps_b; exact Hq).
      rewrite (ssorted_unique pcmp pcmp_total _ p q HS Hp Hq'); [exact Hq|]. unfold pcmp. lia.
  - intros [Hp|[Hp Hn]]; [apply merge_keeps_b; exact Hp|]. apply merge_keeps_a; [exact Hp|].
    intros q Hq. specialize (Hn q Hq). unfold pcmp. lia.
Qed.
