(** Proofs for PropSort.v: qsort_tuple sorts. *)
From Coq Require Import ZArith Arith List Lia Permutation Sorting.Sorted Bool.
From Verif Require Import Qsort.
Import ListNotations.

Section P.
  Context {A : Type}.
  Variable d : A.
  Notation at' := (at' d).
  Notation swap := (swap d).
  Notation vecswap := (vecswap d).

  Lemma upd_length i x (l : list A) : i < length l -> length (upd i x l) = length l.
  Proof. intro H. unfold upd. rewrite app_length, firstn_length. cbn [length]. rewrite skipn_length. lia. Qed.
  Lemma at_upd i x (l : list A) k : i < length l -> at' (upd i x l) k = if k =? i then x else at' l k.
  Proof.
    intro H. unfold upd, Qsort.at'. destruct (Nat.eqb_spec k i) as [->|Hn].
    - rewrite app_nth2; rewrite firstn_length, Nat.min_l by lia; [|lia]. rewrite Nat.sub_diag. reflexivity.
    - destruct (Nat.lt_ge_cases k i) as [L|L].
      + rewrite app_nth1 by (rewrite firstn_length; lia). rewrite <- (firstn_skipn i l) at 2. rewrite app_nth1 by (rewrite firstn_length; lia). reflexivity.
      + rewrite app_nth2 by (rewrite firstn_length; lia). rewrite firstn_length, Nat.min_l by lia.
        replace (k - i) with (S (k - S i)) by lia. cbn [nth]. rewrite <- (firstn_skipn (S i) l) at 2.
        rewrite app_nth2 by (rewrite firstn_length; lia). rewrite firstn_length, Nat.min_l by lia. reflexivity.
  Qed.
  Lemma swap_length i j l : i < length l -> j < length l -> length (swap i j l) = length l.
  Proof. intros Hi Hj. unfold Qsort.swap. rewrite !upd_length; auto. rewrite upd_length; auto. Qed.
  Lemma at_swap i j l k : i < length l -> j < length l -> at' (swap i j l) k = if k =? j then at' l i else if k =? i then at' l j else at' l k.
  Proof.
    intros Hi Hj. unfold Qsort.swap. rewrite at_upd by (rewrite upd_length; auto). destruct (k =? j); [reflexivity|]. rewrite at_upd by auto. reflexivity.
  Qed.
  Lemma at_ext (l l' : list A) : length l = length l' -> (forall k, k < length l -> at' l k = at' l' k) -> l = l'.
  Proof. intros H K. apply (nth_ext l l' d d H). exact K. Qed.
  Lemma swap_perm i j l : i < length l -> j < length l -> Permutation (swap i j l) l.
  Proof.
    intros Hi Hj. apply Permutation_sym, (Permutation_nth l (swap i j l) d). split; [apply swap_length; auto|].
    exists (fun k => if k =? j then i else if k =? i then j else k). split; [|split].
    - intros k Hk. destruct (k =? j); [auto|]. destruct (k =? i); auto.
    - intros x y Hx Hy. destruct (Nat.eqb_spec x j), (Nat.eqb_spec x i), (Nat.eqb_spec y j), (Nat.eqb_spec y i); lia.
    - intros k Hk. pose proof (at_swap i j l k Hi Hj) as E. unfold Qsort.at' in E. rewrite E. destruct (k =? j); [reflexivity|]. destruct (k =? i); reflexivity.
  Qed.
  Lemma at_in l k : k < length l -> In (at' l k) l.
  Proof. intro H. apply nth_In. exact H. Qed.

  Lemma vecswap_spec n : forall i j l, i + n <= j -> j + n <= length l ->
    length (vecswap i j n l) = length l /\ Permutation (vecswap i j n l) l /\
    forall k, at' (vecswap i j n l) k =
      if (i <=? k) && (k <? i + n) then at' l (j + (k - i)) else if (j <=? k) && (k <? j + n) then at' l (i + (k - j)) else at' l k.
  Proof.
    induction n as [|n IH]; intros i j l H1 H2; cbn [Qsort.vecswap].
    - split; [reflexivity|]. split; [reflexivity|]. intro k. rewrite !Nat.add_0_r.
      destruct (Nat.leb_spec i k), (Nat.ltb_spec k i), (Nat.leb_spec j k), (Nat.ltb_spec k j); cbn; try lia; reflexivity.
    - destruct (IH (S i) (S j) (swap i j l)) as (E1 & E2 & E3); [lia|rewrite swap_length; lia|]. rewrite swap_length in E1 by lia.
      split; [exact E1|]. split; [rewrite E2; apply swap_perm; lia|]. intro k. rewrite E3. rewrite !at_swap by lia.
      destruct (Nat.leb_spec (S i) k), (Nat.ltb_spec k (S i + n)), (Nat.leb_spec (S j) k), (Nat.ltb_spec k (S j + n)),
        (Nat.leb_spec i k), (Nat.ltb_spec k (i + S n)), (Nat.leb_spec j k), (Nat.ltb_spec k (j + S n)); cbn [andb]; try lia;
      repeat match goal with |- context [?x =? ?y] => destruct (Nat.eqb_spec x y) end; try lia; try reflexivity; f_equal; lia.
  Qed.

  (** ** index order *)
  Definition upto (R : A -> A -> Prop) (m : nat) (l : list A) : Prop := forall i j, i < j -> j < m -> R (at' l i) (at' l j).
  Lemma upto_sorted R l : upto R (length l) l -> StronglySorted R l.
  Proof.
    induction l as [|x l IH]; intro H; [constructor|]. constructor.
    - apply IH. intros i j Hij Hj. apply (H (S i) (S j)); cbn [length]; lia.
    - rewrite Forall_forall. intros y Hy. destruct (In_nth l y d Hy) as (j & Hj & <-). apply (H 0 (S j)); cbn [length]; lia.
  Qed.

  Variable cmp : A -> A -> Z.
  Notation sink := (sink d cmp).
  Notation small := (small d cmp).
  Lemma sink_perm pl : forall l, pl < length l -> length (sink pl l) = length l /\ Permutation (sink pl l) l.
  Proof.
    induction pl as [|p IH]; intros l H; cbn [Qsort.sink]; [split; reflexivity|]. destruct (0 <? _)%Z; [|split; reflexivity].
    destruct (IH (swap (S p) p l)) as [E1 E2]; [rewrite swap_length; lia|]. rewrite swap_length in E1 by lia.
    split; [exact E1|]. rewrite E2. apply swap_perm; lia.
  Qed.
  Lemma small_fold ms : forall l, (forall m, In m ms -> m < length l) -> let l' := fold_left (fun l pm => sink pm l) ms l in
    length l' = length l /\ Permutation l' l.
  Proof.
    induction ms as [|m ms IH]; intros l H; cbn [fold_left]; [split; reflexivity|].
    destruct (sink_perm m l) as [E1 E2]; [apply H; left; reflexivity|]. destruct (IH (sink m l)) as [E3 E4].
    - intros k Hk. rewrite E1. apply H. right. exact Hk.
    - cbv zeta. rewrite E3, E1. split; [reflexivity|]. rewrite E4. exact E2.
  Qed.
  Lemma small_perm l : length (small l) = length l /\ Permutation (small l) l.
  Proof. apply small_fold. intros m Hm. apply in_seq in Hm. lia. Qed.

  (** ** the partition, for any comparison *)
  Definition eqv (p x : A) : Prop := cmp x p = 0%Z \/ x = p.
  Record PI (l0 : list A) (p : A) (l : list A) (pa pb pc pd : nat) : Prop := {
    pi_len : length l = length l0;
    pi_a : 1 <= pa <= pb;
    pi_b : pb <= S pc;
    pi_c : pc <= pd;
    pi_d : pd < length l;
    pi_p : at' l 0 = p;
    pi_1 : forall k, 1 <= k < pa -> cmp (at' l k) p = 0%Z;
    pi_2 : forall k, pa <= k < pb -> (cmp (at' l k) p < 0)%Z;
    pi_3 : forall k, pc < k <= pd -> (0 < cmp (at' l k) p)%Z;
    pi_4 : forall k, pd < k < length l -> cmp (at' l k) p = 0%Z;
    pi_perm : Permutation l l0 }.
  Ltac cases := repeat match goal with |- context [?x =? ?y] => destruct (Nat.eqb_spec x y) end.

  Lemma scanUp_spec l0 p fuel : forall l pa pb pc pd l' pa' pb', PI l0 p l pa pb pc pd -> S pc - pb < fuel -> scanUp d cmp fuel l pa pb pc = (l', pa', pb') ->
    PI l0 p l' pa' pb' pc pd /\ pb <= pb' /\ (pb' <= pc -> (0 < cmp (at' l' pb') p)%Z).
  Proof.
    induction fuel as [|f IH]; intros l pa pb pc pd l' pa' pb' HI Hf E; [lia|]. cbn [scanUp] in E. pose proof HI as HI0. destruct HI as [I0 I1 I2 I3 I4 I5 I6 I7 I8 I9 I10].
    destruct (Nat.leb_spec pb pc) as [L|L]; [|injection E as <- <- <-; split; [exact HI0|split; lia]].
    rewrite I5 in E. destruct (Z.leb_spec (cmp (at' l pb) p) 0) as [C|C]; [|injection E as <- <- <-; split; [exact HI0|split; [lia|intros _; exact C]]].
    destruct (Z.eqb_spec (cmp (at' l pb) p) 0) as [C0|C0].
    - apply (IH _ _ _ _ pd) in E; [destruct E as (E1 & E2 & E3); split; [exact E1|]; split; [lia|exact E3]| |lia].
      constructor; rewrite ?swap_length by lia; try lia.
      + rewrite at_swap by lia. cases; [lia|lia|]; exact I5.
      + intros k Hk. rewrite at_swap by lia. destruct (Nat.eqb_spec k pb) as [E1|E1]; [replace pa with pb by lia; exact C0|].
        destruct (Nat.eqb_spec k pa) as [E2|E2]; [exact C0|apply I6; lia].
      + intros k Hk. rewrite at_swap by lia. destruct (Nat.eqb_spec k pb) as [E1|E1]; [apply I7; lia|].
        destruct (Nat.eqb_spec k pa) as [E2|E2]; [lia|apply I7; lia].
      + intros k Hk. rewrite at_swap by lia. destruct (Nat.eqb_spec k pb) as [E1|E1]; [lia|].
        destruct (Nat.eqb_spec k pa) as [E2|E2]; [lia|apply I8; lia].
      + intros k Hk. rewrite at_swap by lia. destruct (Nat.eqb_spec k pb) as [E1|E1]; [lia|].
        destruct (Nat.eqb_spec k pa) as [E2|E2]; [lia|apply I9; lia].
      + rewrite swap_perm by lia. exact I10.
    - apply (IH _ _ _ _ pd) in E; [destruct E as (E1 & E2 & E3); split; [exact E1|]; split; [lia|exact E3]| |lia].
      constructor; auto; try lia. intros k Hk. destruct (Nat.eq_dec k pb) as [->|Hn]; [lia|]. apply I7. lia.
  Qed.
  Lemma scanDown_spec l0 p fuel : forall l pa pb pc pd l' pc' pd', PI l0 p l pa pb pc pd -> S pc - pb < fuel ->
    (pb <= pc -> (0 < cmp (at' l pb) p)%Z) -> scanDown d cmp fuel l pb pc pd = (l', pc', pd') ->
    PI l0 p l' pa pb pc' pd' /\ pc' <= pc /\ (pb <= pc' -> (cmp (at' l' pc') p < 0)%Z /\ pb < pc' /\ (0 < cmp (at' l' pb) p)%Z).
  Proof.
    induction fuel as [|f IH]; intros l pa pb pc pd l' pc' pd' HI Hf Hb E; [lia|]. cbn [scanDown] in E. pose proof HI as HI0. destruct HI as [I0 I1 I2 I3 I4 I5 I6 I7 I8 I9 I10].
    destruct (Nat.leb_spec pb pc) as [L|L]; [|injection E as <- <- <-; split; [exact HI0|split; lia]].
    rewrite I5 in E. destruct (Z.leb_spec 0 (cmp (at' l pc) p)) as [C|C].
    2: { injection E as <- <- <-. split; [exact HI0|]. split; [lia|]. intros _. split; [exact C|]. split; [|exact (Hb L)]. destruct (Nat.eq_dec pb pc) as [->|Hn]; [|lia]. specialize (Hb L). lia. }
    destruct (Z.eqb_spec (cmp (at' l pc) p) 0) as [C0|C0].
    - assert (Hpb : pb < pc) by (destruct (Nat.eq_dec pb pc) as [->|Hn]; [specialize (Hb L); lia|lia]).
      apply (IH _ pa) in E; [destruct E as (E1 & E2 & E3); split; [exact E1|]; split; [lia|exact E3]| |lia|].
      + constructor; rewrite ?swap_length by lia; try lia.
        * rewrite at_swap by lia. cases; [lia|lia|]; exact I5.
        * intros k Hk. rewrite at_swap by lia. cases; [lia|lia|apply I6; lia].
        * intros k Hk. rewrite at_swap by lia. cases; [lia|lia|apply I7; lia].
        * intros k Hk. rewrite at_swap by lia. destruct (Nat.eqb_spec k pd) as [E1|E1]; [lia|].
          destruct (Nat.eqb_spec k pc) as [E2|E2]; apply I8; lia.
        * intros k Hk. rewrite at_swap by lia. destruct (Nat.eqb_spec k pd) as [E1|E1]; [exact C0|].
          destruct (Nat.eqb_spec k pc) as [E2|E2]; [lia|apply I9; lia].
        * rewrite swap_perm by lia. exact I10.
      + intros _. rewrite at_swap by lia. cases; [lia|lia|]. apply Hb. lia.
    - apply (IH _ pa) in E; [destruct E as (E1 & E2 & E3); split; [exact E1|]; split; [lia|exact E3]| |lia|intros _; apply Hb; exact L].
      constructor; auto; try lia. intros k Hk. destruct (Nat.eq_dec k pc) as [->|Hn]; [lia|]. apply I8. lia.
  Qed.
  Lemma partition_spec l0 p fuel : forall l pa pb pc pd l' pa' pb' pc' pd', PI l0 p l pa pb pc pd -> S pc - pb < fuel ->
    partition d cmp fuel l pa pb pc pd = (l', pa', pb', pc', pd') -> PI l0 p l' pa' pb' pc' pd' /\ pb' = S pc'.
  Proof.
    induction fuel as [|f IH]; intros l pa pb pc pd l' pa' pb' pc' pd' HI Hf E; [lia|]. cbn [partition] in E.
    destruct (scanUp d cmp (S (length l)) l pa pb pc) as [[l1 pa1] pb1] eqn:E1. destruct (scanDown d cmp (S (length l)) l1 pb1 pc pd) as [[l2 pc2] pd2] eqn:E2.
    pose proof (pi_c _ _ _ _ _ _ _ HI) as Ic. pose proof (pi_d _ _ _ _ _ _ _ HI) as Id.
    apply (scanUp_spec l0 p _ _ _ _ _ pd) in E1; [|exact HI|lia]. destruct E1 as (H1 & L1 & C1).
    apply (scanDown_spec l0 p _ _ pa1) in E2; [|exact H1|lia|exact C1]. destruct E2 as (H2 & L2 & C2).
    destruct (Nat.ltb_spec pc2 pb1) as [L|L].
    - injection E as <- <- <- <- <-. split; [exact H2|]. pose proof (pi_b _ _ _ _ _ _ _ H2). lia.
    - destruct (C2 L) as (C3 & L3 & Cb). destruct H2 as [I0 I1 I2 I3 I4 I5 I6 I7 I8 I9 I10].
      apply IH in E; [exact E| |lia].
      constructor; rewrite ?swap_length by lia; try lia.
      + rewrite at_swap by lia. cases; [lia|lia|]; exact I5.
      + intros k Hk. rewrite at_swap by lia. cases; [lia|lia|apply I6; lia].
      + intros k Hk. rewrite at_swap by lia. destruct (Nat.eqb_spec k pc2) as [E1|E1]; [lia|].
        destruct (Nat.eqb_spec k pb1) as [E2|E2]; [exact C3|apply I7; lia].
      + intros k Hk. rewrite at_swap by lia. destruct (Nat.eqb_spec k pc2) as [E1|E1]; [exact Cb|].
        destruct (Nat.eqb_spec k pb1) as [E2|E2]; [lia|apply I8; lia].
      + intros k Hk. rewrite at_swap by lia. cases; [lia|lia|apply I9; lia].
      + rewrite swap_perm by lia. exact I10.
  Qed.

  Lemma layout l0 p l pa pb pc pd : PI l0 p l pa pb pc pd -> pb = S pc ->
    let n := length l in
    let d1 := Nat.min pa (pb - pa) in
    let l2 := vecswap 0 (pb - d1) d1 l in
    let d1 := Nat.min (pd - pc) (n - pd - 1) in
    let l3 := vecswap pb (n - d1) d1 l2 in
    length l3 = n /\ Permutation l3 l0 /\ pb - pa + (pd - pc) < n /\
    (forall k, k < pb - pa -> (cmp (at' l3 k) p < 0)%Z) /\
    (forall k, pb - pa <= k < n - (pd - pc) -> eqv p (at' l3 k)) /\
    (forall k, n - (pd - pc) <= k < n -> (0 < cmp (at' l3 k) p)%Z).
  Proof.
    intros [I0 I1 I2 I3 I4 I5 I6 I7 I8 I9 I10] E. cbv zeta. set (n := length l) in *.
    set (d1 := Nat.min pa (pb - pa)). set (d2 := Nat.min (pd - pc) (n - pd - 1)).
    destruct (vecswap_spec d1 0 (pb - d1) l) as (A1 & A2 & A3); [lia|lia|]. set (l2 := vecswap 0 (pb - d1) d1 l) in *.
    destruct (vecswap_spec d2 pb (n - d2) l2) as (B1 & B2 & B3); [lia|lia|]. set (l3 := vecswap pb (n - d2) d2 l2) in *.
    split; [lia|]. split; [rewrite B2, A2; exact I10|]. split; [lia|].
    assert (Q0 : forall k, k < pa -> eqv p (at' l k)).
    { intros k Hk. destruct (Nat.eq_dec k 0) as [->|Hn]; [right; exact I5|left; apply I6; lia]. }
    split; [|split]; intros k Hk; rewrite B3.
    - destruct (Nat.leb_spec pb k), (Nat.ltb_spec k (pb + d2)), (Nat.leb_spec (n - d2) k), (Nat.ltb_spec k (n - d2 + d2)); cbn [andb]; try lia; rewrite A3;
      (destruct (Nat.leb_spec 0 k), (Nat.ltb_spec k (0 + d1)), (Nat.leb_spec (pb - d1) k), (Nat.ltb_spec k (pb - d1 + d1)); cbn [andb]; try lia; apply I7; lia).
    - destruct (Nat.lt_ge_cases k pb) as [L|L].
      + destruct (Nat.leb_spec pb k), (Nat.ltb_spec k (pb + d2)), (Nat.leb_spec (n - d2) k), (Nat.ltb_spec k (n - d2 + d2)); cbn [andb]; try lia; rewrite A3;
        (destruct (Nat.leb_spec 0 k), (Nat.ltb_spec k (0 + d1)), (Nat.leb_spec (pb - d1) k), (Nat.ltb_spec k (pb - d1 + d1)); cbn [andb]; try lia; apply Q0; lia).
      + left. assert (G : forall m, pb <= m -> at' l2 m = at' l m).
        { intros m Hm. rewrite A3. destruct (Nat.leb_spec 0 m), (Nat.ltb_spec m (0 + d1)), (Nat.leb_spec (pb - d1) m), (Nat.ltb_spec m (pb - d1 + d1)); cbn [andb]; try lia; reflexivity. }
        destruct (Nat.leb_spec pb k), (Nat.ltb_spec k (pb + d2)), (Nat.leb_spec (n - d2) k), (Nat.ltb_spec k (n - d2 + d2)); cbn [andb]; try lia;
        rewrite G by lia; apply I9; lia.
    - assert (G : forall m, pb <= m -> at' l2 m = at' l m).
      { intros m Hm. rewrite A3. destruct (Nat.leb_spec 0 m), (Nat.ltb_spec m (0 + d1)), (Nat.leb_spec (pb - d1) m), (Nat.ltb_spec m (pb - d1 + d1)); cbn [andb]; try lia; reflexivity. }
      destruct (Nat.leb_spec pb k), (Nat.ltb_spec k (pb + d2)), (Nat.leb_spec (n - d2) k), (Nat.ltb_spec k (n - d2 + d2)); cbn [andb]; try lia;
      rewrite G by lia; apply I8; lia.
  Qed.

  (** ** what one call of qsort_tuple does, for any comparison *)
  Lemma start_PI l : 7 <= length l -> pivot d cmp l < length l ->
    let l0 := swap 0 (pivot d cmp l) l in PI l (at' l0 0) l0 1 1 (length l - 1) (length l - 1).
  Proof.
    intros H Hp. cbv zeta. constructor; rewrite ?swap_length by lia; try lia; try reflexivity.
    apply swap_perm; lia.
  Qed.
  Lemma med3_in l a b c n : a < n -> b < n -> c < n -> med3_tuple d cmp l a b c < n.
  Proof. intros. unfold med3_tuple. repeat match goal with |- context [if ?x then _ else _] => destruct x end; assumption. Qed.
  Lemma pivot_in l : 7 <= length l -> pivot d cmp l < length l.
  Proof.
    intro H. unfold pivot. set (n := length l) in *. assert (n / 2 < n) by (apply Nat.div_lt; lia).
    destruct (Nat.ltb_spec 7 n); [|assumption]. destruct (Nat.ltb_spec 40 n).
    - pose proof (Nat.div_mod n 8 ltac:(lia)). pose proof (Nat.mod_upper_bound n 8 ltac:(lia)).
      pose proof (Nat.div_mod n 2 ltac:(lia)). pose proof (Nat.mod_upper_bound n 2 ltac:(lia)).
      repeat apply med3_in; lia.
    - apply med3_in; lia.
  Qed.

  Lemma qsort_step f l : length l < 7 /\ qsort_tuple d cmp (S f) l = small l \/
    presorted d cmp l = true /\ qsort_tuple d cmp (S f) l = l \/
    exists p left mid right, Permutation (left ++ mid ++ right) l /\ length left < length l /\ length right < length l /\
      (forall x, In x left -> (cmp x p < 0)%Z) /\ (forall x, In x mid -> eqv p x) /\ (forall x, In x right -> (0 < cmp x p)%Z) /\ In p l /\
      qsort_tuple d cmp (S f) l =
        (if 1 <? length left then qsort_tuple d cmp f left else left) ++ mid ++ (if 1 <? length right then qsort_tuple d cmp f right else right).
  Proof.
    cbn [qsort_tuple]. destruct (Nat.ltb_spec (length l) 7) as [L|L]; [left; auto|]. right.
    destruct (presorted d cmp l); [left; auto|]. right.
    pose proof (start_PI l L (pivot_in l L)) as H0. cbv zeta in H0. set (p := at' (swap 0 (pivot d cmp l) l) 0) in *.
    destruct (partition d cmp (S (length l)) (swap 0 (pivot d cmp l) l) 1 1 (length l - 1) (length l - 1)) as [[[[l1 pa] pb] pc] pd] eqn:E.
    apply (partition_spec l p) in E; [|exact H0|lia]. destruct E as [H1 Hb].
    pose proof (layout _ _ _ _ _ _ _ H1 Hb) as Y. cbv zeta in Y. rewrite (pi_len _ _ _ _ _ _ _ H1) in Y.
    set (l3 := vecswap pb _ _ _) in *. destruct Y as (Y1 & Y2 & Y3 & Y4 & Y5 & Y6).
    set (n := length l) in *. set (d1 := pb - pa) in *. set (d2 := pd - pc) in *.
    assert (F : forall a b x, b <= n -> In x (firstn (b - a) (skipn a l3)) -> exists k, a <= k < b /\ x = at' l3 k).
    { intros a b x Hb' Hx. destruct (In_nth _ _ d Hx) as (i & Hi & <-). rewrite firstn_length, skipn_length in Hi. exists (a + i). split; [lia|].
      assert (Ei : nth i (firstn (b - a) (skipn a l3)) d = nth i (skipn a l3) d).
      { rewrite <- (firstn_skipn (b - a) (skipn a l3)) at 2. rewrite app_nth1 by (rewrite firstn_length, skipn_length; lia). reflexivity. }
      rewrite Ei. unfold Qsort.at'. rewrite <- (firstn_skipn a l3) at 2. rewrite app_nth2 by (rewrite firstn_length; lia). rewrite firstn_length. f_equal. lia. }
    exists p, (firstn d1 l3), (firstn (n - d2 - d1) (skipn d1 l3)), (skipn (n - d2) l3).
    assert (El : length (firstn d1 l3) = d1) by (rewrite firstn_length; lia). assert (Er : length (skipn (n - d2) l3) = d2) by (rewrite skipn_length; lia).
    rewrite El, Er. split; [|split; [lia|split; [lia|split; [|split; [|split; [|split]]]]]].
    - rewrite <- Y2. replace (firstn d1 l3 ++ firstn (n - d2 - d1) (skipn d1 l3) ++ skipn (n - d2) l3) with l3; [reflexivity|].
      rewrite <- (firstn_skipn d1 l3) at 1. f_equal. rewrite <- (firstn_skipn (n - d2 - d1) (skipn d1 l3)) at 1. f_equal.
      assert (SS : forall b a (m : list A), skipn a (skipn b m) = skipn (b + a) m).
      { clear. induction b as [|b IH]; intros a [|x m]; cbn [skipn Nat.add]; try reflexivity; [destruct a; reflexivity|apply IH]. }
      rewrite SS. f_equal. lia.
    - intros x Hx. destruct (F 0 d1 x) as (k & Hk & ->); [lia|rewrite Nat.sub_0_r; exact Hx|]. apply Y4. lia.
    - intros x Hx. destruct (F d1 (n - d2) x) as (k & Hk & ->); [lia|exact Hx|]. apply Y5. lia.
    - intros x Hx. destruct (F (n - d2) n x) as (k & Hk & ->); [lia| |apply Y6; lia]. rewrite firstn_all2; [exact Hx|rewrite skipn_length; lia].
    - apply (Permutation_in _ (swap_perm 0 (pivot d cmp l) l ltac:(lia) (pivot_in l L))). apply at_in. rewrite swap_length by (try apply pivot_in; lia). lia.
    - reflexivity.
  Qed.

  Lemma qsort_perm fuel : forall l, length l < fuel -> Permutation (qsort_tuple d cmp fuel l) l.
  Proof.
    induction fuel as [|f IH]; intros l H; [lia|].
    destruct (qsort_step f l) as [[L E]|[[L E]|(p & le & mi & ri & Hp & Hl & Hr & _ & _ & _ & _ & E)]]; rewrite E.
    - apply small_perm.
    - reflexivity.
    - rewrite <- Hp. apply Permutation_app; [destruct (1 <? length le); [apply IH; lia|reflexivity]|].
      apply Permutation_app_head. destruct (1 <? length ri); [apply IH; lia|reflexivity].
  Qed.

  (** ** comparisons that are an order *)
  Variable P : A -> Prop.
  Hypothesis Hanti : forall x y, P x -> P y -> ((cmp x y < 0)%Z <-> (0 < cmp y x)%Z).
  Hypothesis Htrans : forall x y z, P x -> P y -> P z -> (cmp x y <= 0)%Z -> (cmp y z <= 0)%Z -> (cmp x z <= 0)%Z.
  Definition le (x y : A) : Prop := (cmp x y <= 0)%Z.
  Lemma at_P l k : Forall P l -> k < length l -> P (at' l k).
  Proof. intros H Hk. rewrite Forall_forall in H. apply H, at_in, Hk. Qed.
  Lemma le_refl x : P x -> le x x.
  Proof. intro H. unfold le. pose proof (Hanti x x H H). lia. Qed.

  Lemma swap_P i j l : Forall P l -> i < length l -> j < length l -> Forall P (swap i j l).
  Proof. intros H Hi Hj. rewrite Forall_forall in *. intros x Hx. apply H. apply (Permutation_in _ (swap_perm i j l Hi Hj)). exact Hx. Qed.
  Lemma sink_sorted m pl : forall l, Forall P l -> m < length l -> pl <= m ->
    (forall i j, i < j -> j <= m -> i <> pl -> j <> pl -> le (at' l i) (at' l j)) ->
    (forall j, pl < j -> j <= m -> le (at' l pl) (at' l j)) -> upto le (S m) (sink pl l).
  Proof.
    induction pl as [|p IH]; intros l HP Hm Hpl H1 H2; cbn [Qsort.sink].
    - intros i j Hij Hj. destruct (Nat.eq_dec i 0) as [->|Hi]; [apply H2; lia|apply H1; lia].
    - destruct (Z.ltb_spec 0 (cmp (at' l p) (at' l (S p)))) as [C|C].
      + apply IH; rewrite ?swap_length by lia; try lia.
        * apply swap_P; [exact HP|lia|lia].
        * intros i j Hij Hj Hi Hj'. rewrite !at_swap by lia.
          destruct (Nat.eqb_spec i p), (Nat.eqb_spec j p), (Nat.eqb_spec i (S p)), (Nat.eqb_spec j (S p)); subst; try lia; apply H1; lia.
        * intros j Hj Hjm. rewrite !at_swap by lia. rewrite Nat.eqb_refl.
          destruct (Nat.eqb_spec j p), (Nat.eqb_spec j (S p)); subst; try lia; [|apply H2; lia].
          unfold le. assert (cmp (at' l (S p)) (at' l p) < 0)%Z by (apply Hanti; [apply at_P; auto; lia|apply at_P; auto; lia|exact C]). lia.
      + intros i j Hij Hj. destruct (Nat.eq_dec i (S p)) as [->|Hi]; [apply H2; lia|]. destruct (Nat.eq_dec j (S p)) as [->|Hj']; [|apply H1; lia].
        destruct (Nat.eq_dec i p) as [->|Hip]; [exact C|]. apply (Htrans _ (at' l p)); try (apply at_P; auto; lia); [apply H1; lia|exact C].
  Qed.
  Lemma small_sorted l : Forall P l -> upto le (length l) (small l).
  Proof.
    intro HP. unfold Qsort.small.
    assert (G : forall k m (l : list A), Forall P l -> 0 < m -> m + k <= length l -> upto le m l ->
                upto le (m + k) (fold_left (fun l pm => sink pm l) (seq m k) l)).
    { clear l HP. induction k as [|k IH]; intros m l HP H0 Hm H; cbn [seq fold_left]; [rewrite Nat.add_0_r; exact H|].
      destruct (sink_perm m l) as [S1 S2]; [lia|]. replace (m + S k) with (S m + k) by lia. apply IH; [|lia|lia|].
      - rewrite Forall_forall in *. intros x Hx. apply HP. apply (Permutation_in _ S2). exact Hx.
      - apply sink_sorted; [exact HP|lia|lia| |lia]. intros i j Hij Hj Hi Hj'. apply H; lia. }
    destruct l as [|x l]; [intros i j Hij Hj; cbn in Hj; lia|].
    specialize (G (length l) 1 (x :: l) HP). cbn [length] in *. replace (S (length l) - 1) with (length l) by lia. apply G; try lia.
    intros i j Hij Hj. lia.
  Qed.
  Lemma presorted_sorted l : Forall P l -> presorted d cmp l = true -> upto le (length l) l.
  Proof.
    intros HP H. unfold presorted in H. rewrite forallb_forall in H.
    assert (G : forall i k, i + k < length l -> le (at' l i) (at' l (i + k))).
    { intros i k. induction k as [|k IH]; intro Hk; [rewrite Nat.add_0_r; apply le_refl, at_P; auto; lia|].
      apply (Htrans _ (at' l (i + k))); try (apply at_P; auto; lia); [apply IH; lia|].
      specialize (H (i + S k)). rewrite in_seq in H. specialize (H ltac:(lia)). replace (i + S k - 1) with (i + k) in H by lia.
      destruct (Z.ltb_spec 0 (cmp (at' l (i + k)) (at' l (i + S k)))); [discriminate|assumption]. }
    intros i j Hij Hj. replace j with (i + (j - i)) by lia. apply G. lia.
  Qed.

  Lemma ss_app (R : A -> A -> Prop) a : forall b, StronglySorted R a -> StronglySorted R b -> (forall x y, In x a -> In y b -> R x y) -> StronglySorted R (a ++ b).
  Proof.
    induction a as [|x a IH]; intros b Ha Hb H; [exact Hb|]. inversion Ha; subst. cbn [app]. constructor.
    - apply IH; auto. intros; apply H; [right|]; auto.
    - apply Forall_app. split; [assumption|]. rewrite Forall_forall. intros y Hy. apply H; [left; reflexivity|exact Hy].
  Qed.
  Lemma ss_all (R : A -> A -> Prop) l : (forall x y, In x l -> In y l -> R x y) -> StronglySorted R l.
  Proof.
    induction l as [|x l IH]; intro H; constructor.
    - apply IH. intros; apply H; right; auto.
    - rewrite Forall_forall. intros y Hy. apply H; [left; reflexivity|right; exact Hy].
  Qed.
  Lemma qsort_sorted fuel : forall l, Forall P l -> length l < fuel -> StronglySorted le (qsort_tuple d cmp fuel l).
  Proof.
    induction fuel as [|f IH]; intros l HP H; [lia|].
    destruct (qsort_step f l) as [[L E]|[[L E]|(p & lf & mi & ri & Hp & Hl & Hr & H1 & H2 & H3 & Hin & E)]]; rewrite E.
    - apply upto_sorted. rewrite (proj1 (small_perm l)). apply small_sorted, HP.
    - apply upto_sorted, presorted_sorted; assumption.
    - assert (HPp : P p) by (rewrite Forall_forall in HP; apply HP, Hin).
      assert (HP' : forall x, In x (lf ++ mi ++ ri) -> P x) by (intros x Hx; rewrite Forall_forall in HP; apply HP; apply (Permutation_in _ Hp); exact Hx).
      assert (HPl : Forall P lf) by (rewrite Forall_forall; intros x Hx; apply HP', in_or_app; auto).
      assert (HPr : Forall P ri) by (rewrite Forall_forall; intros x Hx; apply HP'; rewrite !in_app_iff; auto).
      assert (HPm : forall x, In x mi -> P x) by (intros x Hx; apply HP'; rewrite !in_app_iff; auto).
      set (a := if 1 <? length lf then _ else _). set (b := if 1 <? length ri then _ else _).
      assert (Pa : Permutation a lf) by (unfold a; destruct (1 <? length lf); [apply qsort_perm; lia|reflexivity]).
      assert (Pb : Permutation b ri) by (unfold b; destruct (1 <? length ri); [apply qsort_perm; lia|reflexivity]).
      assert (one : forall l : list A, length l <= 1 -> StronglySorted le l).
      { intros [|x [|y l']] Hx; cbn [length] in Hx; try lia; repeat constructor. }
      assert (Sa : StronglySorted le a) by (unfold a; destruct (Nat.ltb_spec 1 (length lf)); [apply IH; [exact HPl|lia]|apply one; lia]).
      assert (Sb : StronglySorted le b) by (unfold b; destruct (Nat.ltb_spec 1 (length ri)); [apply IH; [exact HPr|lia]|apply one; lia]).
      assert (La : forall x, In x a -> P x /\ le x p).
      { intros x Hx. apply (Permutation_in _ Pa) in Hx. split; [rewrite Forall_forall in HPl; auto|]. unfold le. specialize (H1 x Hx). lia. }
      assert (Lb : forall x, In x b -> P x /\ le p x).
      { intros x Hx. apply (Permutation_in _ Pb) in Hx. assert (Px : P x) by (rewrite Forall_forall in HPr; auto). split; [exact Px|].
        unfold le. pose proof (Hanti p x HPp Px). specialize (H3 x Hx). lia. }
      assert (Lm : forall x, In x mi -> P x /\ le x p /\ le p x).
      { intros x Hx. pose proof (HPm x Hx) as Px. split; [exact Px|]. destruct (H2 x Hx) as [Ez| ->]; [|split; apply le_refl; exact HPp].
        unfold le. pose proof (Hanti x p Px HPp). pose proof (Hanti p x HPp Px). lia. }
      apply ss_app; [exact Sa| |].
      + apply ss_app; [|exact Sb|].
        * apply ss_all. intros x y Hx Hy. destruct (Lm x Hx) as (Px & X1 & _), (Lm y Hy) as (Py & _ & Y2). apply (Htrans _ p); auto.
        * intros x y Hx Hy. destruct (Lm x Hx) as (Px & X1 & _), (Lb y Hy) as (Py & Y2). apply (Htrans _ p); auto.
      + intros x y Hx Hy. destruct (La x Hx) as (Px & X1). apply in_app_or in Hy. destruct Hy as [Hy|Hy].
        * destruct (Lm y Hy) as (Py & _ & Y2). apply (Htrans _ p); auto.
        * destruct (Lb y Hy) as (Py & Y2). apply (Htrans _ p); auto.
  Qed.
End P.
