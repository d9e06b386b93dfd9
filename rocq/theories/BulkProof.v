(** Proofs about the bulk accumulator. *)
From Verif Require Import Base Ord OrdProof Entries EntriesProof Bulk BulkSpec NBits.
From Coq Require Import NArith ZArith Lia List Bool Arith Permutation Sorted.
From Coq Require Import ZifyBool ZifyNat ZifyN.
Import ListNotations.
Ltac Zify.zify_post_hook ::= Z.div_mod_to_equations.
Local Open Scope N_scope.

(** ** visiting order *)
Definition smeared (n s : N) (m : nat) : Prop :=
  forall k, N.testbit s k = existsb (fun j => N.testbit n (k + N.of_nat j)) (seq 0 m).
Lemma existsb_app_seq f a b : existsb f (seq 0 (a + b)) = existsb f (seq 0 a) || existsb (fun j => f (a + j)%nat) (seq 0 b).
Proof.
  rewrite seq_app, existsb_app. f_equal. simpl.
  assert (H : forall c s, existsb f (seq (a + s) c) = existsb (fun j => f (a + j)%nat) (seq s c)).
  { induction c as [|c IH]; intro s; [reflexivity|]. cbn [seq existsb]. f_equal. replace (S (a + s)) with (a + S s)%nat by lia. apply IH. }
  specialize (H b 0%nat). rewrite Nat.add_0_r in H. exact H.
Qed.
Lemma smear_step n s m : smeared n s m -> smeared n (N.lor s (N.shiftr s (N.of_nat m))) (m + m).
Proof.
  intros H k. rewrite N.lor_spec, N.shiftr_spec'. rewrite existsb_app_seq. f_equal; [apply H|]. rewrite H.
  clear H. induction (seq 0 m) as [|j l IH]; [reflexivity|]. cbn [existsb]. rewrite IH. f_equal. f_equal. lia.
Qed.
Lemma ba_step_pow n : 0 < n -> n < 2 ^ 32 -> ba_step n = 2 ^ N.log2 n.
Proof.
  intros H0 Hn. unfold ba_step.
  assert (S0 : smeared n n 1). { intro k. cbn. rewrite N.add_0_r, orb_false_r. reflexivity. }
  apply smear_step in S0. change (N.of_nat 1) with 1 in S0. apply smear_step in S0. change (N.of_nat (1 + 1)) with 2 in S0.
  apply smear_step in S0. change (N.of_nat (1 + 1 + (1 + 1))) with 4 in S0. apply smear_step in S0.
  change (N.of_nat (1 + 1 + (1 + 1) + (1 + 1 + (1 + 1)))) with 8 in S0. apply smear_step in S0.
  change (N.of_nat (1 + 1 + (1 + 1) + (1 + 1 + (1 + 1)) + (1 + 1 + (1 + 1) + (1 + 1 + (1 + 1))))) with 16 in S0.
  match type of S0 with smeared _ ?s ?m => change m with 32%nat in S0; set (sm := s) in * end.
  assert (E : sm = N.ones (N.succ (N.log2 n))).
  { apply N.bits_inj. intro k. rewrite S0. assert (Hlog : N.log2 n < 32) by (apply N.log2_lt_pow2; assumption).
    destruct (N.lt_ge_cases k (N.succ (N.log2 n))) as [L|L].
    - rewrite N.ones_spec_low by exact L. apply existsb_exists. exists (N.to_nat (N.log2 n - k)). split.
      + apply in_seq. lia.
      + rewrite N2Nat.id. replace (k + (N.log2 n - k)) with (N.log2 n) by lia. apply N.bit_log2. lia.
    - rewrite N.ones_spec_high by exact L. apply not_true_iff_false. intro Q. apply existsb_exists in Q as (j & _ & Q).
      rewrite N.bits_above_log2 in Q by lia. discriminate. }
  rewrite E. rewrite N.shiftr_div_pow2. rewrite N.ones_equiv. rewrite N.pow_succ_r'. change (2 ^ 1) with 2.
  assert (0 < 2 ^ N.log2 n) by (apply N.neq_0_lt_0, N.pow_nonzero; lia). lia.
Qed.

Lemma ba_inner_spec n s : 0 < s -> s <= n -> n < 2 ^ 31 -> s <= 2 ^ 30 ->
  forall fuel i, (i < 2 ^ 32) -> (N.to_nat n < fuel + N.to_nat i)%nat ->
  NoDup (ba_inner fuel n s i) /\
  forall x, In x (ba_inner fuel n s i) <-> x < n /\ exists m, x = i + 2 * s * m.
Proof.
  intros Hs Hsn Hn Hs2. change (2 ^ 31) with 2147483648 in *. change (2 ^ 30) with 1073741824 in *. change (2 ^ 32) with 4294967296 in *.
  induction fuel as [|f IH]; intros i Hi Hf.
  { cbn. split; [constructor|]. intro x. split; [tauto|]. intros [Hx (m & ->)]. nia. }
  cbn [ba_inner]. change (2 ^ 31) with 2147483648. change (2 ^ 32) with 4294967296. rewrite N.shiftl_mul_pow2. change (2 ^ 1) with 2.
  destruct (N.ltb_spec i n) as [L|L].
  - destruct (N.ltb_spec i 2147483648) as [L2|L2]; [|lia]. cbn [andb].
    rewrite N.mod_small by lia. destruct (IH (i + s * 2)) as [N1 I1]; [lia|lia|]. split.
    + constructor; [|exact N1]. rewrite I1. intros [_ (m & E)]. nia.
    + intro x. cbn [In]. rewrite I1. split.
      * intros [<-|[Hx (m & ->)]]; [split; [exact L|exists 0; lia]|]. split; [exact Hx|]. exists (m + 1). lia.
      * intros [Hx (m & ->)]. destruct (N.eq_dec m 0) as [->|Hm]; [left; lia|right]. split; [exact Hx|]. exists (m - 1). nia.
  - cbn [andb]. split; [constructor|]. intro x. split; [intros []|]. intros [Hx (m & ->)]. nia.
Qed.
Lemma nodup_app2 {T} (l1 l2 : list T) : NoDup l1 -> NoDup l2 -> (forall x, In x l1 -> In x l2 -> False) -> NoDup (l1 ++ l2).
Proof.
  induction 1 as [|x l1 Hx H1 IH]; intros H2 Hd; [exact H2|]. cbn [app]. constructor.
  - rewrite in_app_iff. intros [H|H]; [contradiction|]. apply (Hd x); [left; reflexivity|exact H].
  - apply IH; [exact H2|]. intros y Hy. apply Hd. right. exact Hy.
Qed.
Lemma nodup_right {T} (l1 l2 : list T) : NoDup (l1 ++ l2) -> NoDup l2.
Proof. induction l1 as [|x l1 IH]; [auto|]. cbn. intro H. inversion H; auto. Qed.
Lemma nodup_left {T} (l1 l2 : list T) : NoDup (l1 ++ l2) -> NoDup l1.
Proof.
  induction l1 as [|x l1 IH]; [constructor|]. cbn. intro H. inversion H; subst. constructor; auto. intro Q. apply H2. apply in_app_iff. auto.
Qed.
(* x + 1 is an odd multiple of 2^j, for some j <= e *)
Lemma ba_outer_spec n : n < 2 ^ 31 -> forall e fuel, (N.to_nat e < fuel)%nat -> 2 ^ e <= n -> e <= 30 ->
  NoDup (ba_outer fuel n (2 ^ e)) /\
  forall x, In x (ba_outer fuel n (2 ^ e)) <-> x < n /\ exists j m, j <= e /\ x + 1 = 2 ^ j * (2 * m + 1).
Proof.
  intros Hn e. induction e as [|e IH] using N.peano_ind; intros fuel Hf Hle He.
  - destruct fuel as [|f]; [lia|]. cbn [ba_outer]. change (2 ^ 0) with 1. change (0 <? 1) with true. cbn iota.
    change (N.shiftr 1 1) with 0. assert (E0 : ba_outer f n 0 = []) by (destruct f; reflexivity). rewrite E0, app_nil_r.
    destruct (ba_inner_spec n 1 ltac:(lia) ltac:(change (2 ^ 0) with 1 in Hle; lia) Hn ltac:(discriminate) (S (N.to_nat n)) (1 - 1)) as [N1 I1]; [change (2 ^ 32) with 4294967296; lia|lia|].
    split; [exact N1|]. intro x. rewrite I1. split.
    + intros [Hx (m & ->)]. split; [exact Hx|]. exists 0, m. change (2 ^ 0) with 1. split; lia.
    + intros [Hx (j & m & Hj & E)]. split; [exact Hx|]. exists m. assert (j = 0) as -> by lia. change (2 ^ 0) with 1 in E. lia.
  - destruct fuel as [|f]; [lia|]. cbn [ba_outer]. assert (Hp : 0 < 2 ^ e) by (apply N.neq_0_lt_0, N.pow_nonzero; lia).
    rewrite N.pow_succ_r' in *. destruct (N.ltb_spec 0 (2 * 2 ^ e)); [|lia].
    assert (E1 : N.shiftr (2 * 2 ^ e) 1 = 2 ^ e) by (rewrite N.shiftr_div_pow2; change (2 ^ 1) with 2; lia). rewrite E1.
    destruct (IH f ltac:(lia) ltac:(lia) ltac:(lia)) as [N2 I2].
    assert (Hb : 2 * 2 ^ e <= 2 ^ 30). { rewrite <- N.pow_succ_r'. apply N.pow_le_mono_r; lia. }
    destruct (ba_inner_spec n (2 * 2 ^ e) ltac:(lia) Hle Hn Hb (S (N.to_nat n)) (2 * 2 ^ e - 1)) as [N1 I1];
      [change (2 ^ 30) with 1073741824 in Hb; change (2 ^ 32) with 4294967296; lia|lia|].
    split.
    + apply nodup_app2; [exact N1|exact N2|]. intros x Hx1 Hx2. apply I1 in Hx1 as [_ (m & Ex)]. apply I2 in Hx2 as [_ (j & m2 & Hj & Ex2)].
      assert (Ed : x + 1 = 2 ^ N.succ e * (2 * m + 1)) by (rewrite N.pow_succ_r'; nia).
      rewrite Ed in Ex2. replace (N.succ e) with (j + N.succ (e - j)) in Ex2 by lia. rewrite N.pow_add_r, N.pow_succ_r' in Ex2.
      assert (0 < 2 ^ j) by (apply N.neq_0_lt_0, N.pow_nonzero; lia).
      rewrite <- N.mul_assoc in Ex2. apply N.mul_cancel_l in Ex2; [|lia]. lia.
    + intro x. rewrite in_app_iff, I1, I2. split.
      * intros [[Hx (m & Ex)]|[Hx (j & m & Hj & Ex)]]; (split; [exact Hx|]).
        -- exists (N.succ e), m. rewrite N.pow_succ_r'. split; [lia|]. nia.
        -- exists j, m. split; [lia|exact Ex].
      * intros [Hx (j & m & Hj & Ex)]. destruct (N.eq_dec j (N.succ e)) as [->|Hne].
        -- left. split; [exact Hx|]. exists m. rewrite N.pow_succ_r' in Ex. nia.
        -- right. split; [exact Hx|]. exists j, m. split; [lia|exact Ex].
Qed.
Lemma odd_part x : 0 < x -> exists j m, x = 2 ^ j * (2 * m + 1).
Proof.
  induction x as [x IH] using (well_founded_induction N.lt_wf_0). intro H. destruct (N.Even_or_Odd x) as [[y E]|[y E]].
  - destruct (IH y ltac:(lia) ltac:(lia)) as (j & m & Ey). exists (N.succ j), m. rewrite N.pow_succ_r'. lia.
  - exists 0, y. change (2 ^ 0) with 1. lia.
Qed.
Lemma ba_visit_spec n : n < 2 ^ 31 -> NoDup (ba_visit n) /\ forall i, In i (ba_visit n) <-> i < n.
Proof.
  intro Hn. unfold ba_visit. destruct (N.eqb_spec n 0) as [->|H0]; [split; [constructor|intro i; split; [intros []|lia]]|].
  rewrite ba_step_pow; [|lia|change (2 ^ 31) with 2147483648 in Hn; change (2 ^ 32) with 4294967296; lia].
  destruct (N.log2_spec n ltac:(lia)) as [L1 L2].
  assert (Hl : N.log2 n < 31) by (apply N.log2_lt_pow2; [lia|exact Hn]).
  destruct (ba_outer_spec n Hn (N.log2 n) 33 ltac:(lia) L1 ltac:(lia)) as [N1 I1]. split; [exact N1|].
  intro i. rewrite I1. split; [tauto|]. intro Hi. split; [exact Hi|]. destruct (odd_part (i + 1) ltac:(lia)) as (j & m & E).
  exists j, m. split; [|exact E]. apply N.lt_succ_r. apply (N.pow_lt_mono_r_iff 2); [lia|].
  assert (2 ^ j <= i + 1) by (rewrite E; nia). lia.
Qed.

(** ** the accumulator *)
Lemma flat_map_seq_nth {T} (l : list T) :
  flat_map (fun i => match nth_error l i with Some e => [e] | None => [] end) (seq 0 (length l)) = l.
Proof.
  assert (H : forall l2 l1 : list T, flat_map (fun i => match nth_error (l1 ++ l2) i with Some e => [e] | None => [] end) (seq (length l1) (length l2)) = l2).
  { induction l2 as [|x l2 IH]; intro l1; [reflexivity|]. cbn [length seq flat_map]. rewrite nth_error_app2, Nat.sub_diag by lia. cbn [nth_error app].
    f_equal. specialize (IH (l1 ++ [x])). rewrite <- app_assoc in IH. rewrite app_length in IH. cbn [length] in IH.
    replace (length l1 + 1)%nat with (S (length l1)) in IH by lia. exact IH. }
  apply (H l []).
Qed.
Lemma perm_flat_map {T U} (f : T -> list U) l l' : Permutation l l' -> Permutation (flat_map f l) (flat_map f l').
Proof.
  induction 1 as [|x l l' P IH|x y l|l l' l2 P1 IH1 P2 IH2]; cbn [flat_map]; auto.
  - apply Permutation_app_head. exact IH.
  - rewrite !app_assoc. apply Permutation_app_tail. apply Permutation_app_comm.
  - etransitivity; eauto.
Qed.
Lemma visit_perm n : (n < 2 ^ 31) -> Permutation (ba_visit n) (map N.of_nat (seq 0 (N.to_nat n))).
Proof.
  intro Hn. destruct (ba_visit_spec n Hn) as [N1 I1]. apply NoDup_Permutation; [exact N1| |].
  - apply FinFun.Injective_map_NoDup; [intros x y; apply Nat2N.inj|apply seq_NoDup].
  - intro x. rewrite I1, in_map_iff. split.
    + intro H. exists (N.to_nat x). split; [lia|]. apply in_seq. lia.
    + intros (y & <- & Hy). apply in_seq in Hy. lia.
Qed.

Section Acc.
  Context {K A : Type}.
  Variable compareFn : N -> K -> K -> Z.
  Hypothesis OKk : forall n, total_cmp (compareFn n).
  Variable cmpA : A -> A -> Z.
  Hypothesis OKA : total_cmp cmpA.
  Variables (useAlt : bool) (addTo : N).
  Variable qsort : (item A -> item A -> Z) -> list (item A) -> list (item A).
  Hypothesis Hq : sorter qsort.
  Notation kcmp := (rumCompareAttEntries compareFn).
  Let OK : total_cmp kcmp := att_total compareFn OKk.
  Notation rbt := (rbt_insert compareFn useAlt addTo).
  Notation isk k := (fun p => (kcmp (fst p) k =? 0)%Z).

  Definition ins_all (acc : list (@eacc K A)) (ps : list (ekey K * item A)) : list eacc :=
    fold_left (fun acc p => rbt acc (fst p) (snd p)) ps acc.
  Definition acc_for (k : ekey K) (acc : list (@eacc K A)) : list (item A) :=
    concat (map ea_list (filter (fun e => (kcmp (ea_key e) k =? 0)%Z) acc)).
  Definition pairs_for (k : ekey K) (ps : list (ekey K * item A)) : list (item A) := map snd (filter (isk k) ps).

  Lemma key_swap a b k : kcmp a b = 0%Z -> (kcmp a k =? 0)%Z = (kcmp b k =? 0)%Z.
  Proof. intro E. pose proof (cmp_eq_l _ OK a b k E). destruct (Z.eqb_spec (kcmp a k) 0), (Z.eqb_spec (kcmp b k) 0); auto; lia. Qed.
  Lemma rbt_for k acc : forall k' it,
    Permutation (acc_for k (rbt acc k' it)) (acc_for k acc ++ if (kcmp k' k =? 0)%Z then [it] else []).
  Proof.
    induction acc as [|e r IH]; intros k' it; cbn [rbt_insert].
    - unfold acc_for. cbn. destruct (kcmp k' k =? 0)%Z; reflexivity.
    - destruct (Z.eqb_spec (kcmp k' (ea_key e)) 0) as [E|E].
      + unfold acc_for. cbn [filter]. change (ea_key (rumCombineData useAlt e it)) with (ea_key e). rewrite (key_swap k' (ea_key e) k E).
        destruct (kcmp (ea_key e) k =? 0)%Z; cbn [map concat].
        * change (ea_list (rumCombineData useAlt e it)) with (ea_list e ++ [it]). rewrite <- !app_assoc. apply Permutation_app_head. apply Permutation_app_comm.
        * rewrite app_nil_r. reflexivity.
      + destruct (kcmp k' (ea_key e) <? 0)%Z.
        * unfold acc_for at 1. cbn [filter newEntry ea_key]. destruct (kcmp k' k =? 0)%Z; cbn [map concat ea_list newEntry].
          -- fold (acc_for k (e :: r)). apply Permutation_app_comm.
          -- rewrite app_nil_r. reflexivity.
        * unfold acc_for. cbn [filter]. specialize (IH k' it). unfold acc_for in IH. destruct (kcmp (ea_key e) k =? 0)%Z; cbn [map concat].
          -- rewrite <- app_assoc. apply Permutation_app_head. exact IH.
          -- exact IH.
  Qed.
  Lemma ins_all_for k ps : forall acc, Permutation (acc_for k (ins_all acc ps)) (acc_for k acc ++ pairs_for k ps).
  Proof.
    induction ps as [|[k' it] ps IH]; intro acc; cbn [ins_all fold_left].
    - unfold pairs_for. cbn. rewrite app_nil_r. reflexivity.
    - fold (ins_all (rbt acc (fst (k', it)) (snd (k', it))) ps). rewrite IH. cbn [fst snd]. rewrite rbt_for. rewrite <- app_assoc. apply Permutation_app_head.
      unfold pairs_for. cbn [filter fst]. destruct (kcmp k' k =? 0)%Z; reflexivity.
  Qed.

  (** a row goes in as a rearrangement of its pairs *)
  Lemma entries_all acc tid att es : N.of_nat (length es) < 2 ^ 31 ->
    exists es', Permutation es' es /\ rumInsertBAEntries compareFn useAlt addTo acc tid att es =
      ins_all acc (map (fun '(k, c, a) => (mkKey att k c, mkItem tid a)) es').
  Proof.
    intro Hl. set (g := fun i => match nth_error es (N.to_nat i) with Some e => [e] | None => [] end).
    exists (flat_map g (ba_visit (N.of_nat (length es)))). split.
    - rewrite (perm_flat_map g _ _ (visit_perm _ Hl)). rewrite Nat2N.id.
      assert (E : flat_map g (map N.of_nat (seq 0 (length es))) = es); [|rewrite E; reflexivity].
      etransitivity; [|apply (flat_map_seq_nth es)]. generalize (seq 0 (length es)). induction l as [|i l IH]; [reflexivity|].
      cbn [map flat_map]. rewrite IH. unfold g. rewrite Nat2N.id. reflexivity.
    - unfold rumInsertBAEntries. generalize (ba_visit (N.of_nat (length es))). intro l. revert acc.
      induction l as [|i l IH]; intro acc; [reflexivity|]. cbn [fold_left flat_map]. rewrite map_app. unfold ins_all. rewrite fold_left_app.
      rewrite IH. unfold ins_all. f_equal. unfold g. destruct (nth_error es (N.to_nat i)) as [[[k c] a]|]; reflexivity.
  Qed.
  Lemma cols_all (r : @hrow K A) cols : forall acc att, (forall es, In es cols -> N.of_nat (length es) < 2 ^ 31) ->
    exists ps, Permutation ps (col_pairs addTo r att cols) /\ bulk_cols compareFn useAlt addTo acc r att cols = ins_all acc ps.
  Proof.
    induction cols as [|es cols IH]; intros acc att Hl; cbn [bulk_cols col_pairs]; [exists []; split; reflexivity|].
    unfold rumHeapTupleBulkInsert.
    match goal with |- context [rumInsertBAEntries _ _ _ _ _ _ ?x] => set (es1 := x) end.
    assert (L1 : N.of_nat (length es1) < 2 ^ 31).
    { unfold es1. destruct (att =? addTo); [rewrite map_length|]; apply Hl; left; reflexivity. }
    destruct (entries_all acc (r_tid r) att es1 L1) as (es' & P1 & E1). rewrite E1.
    destruct (IH (ins_all acc (map (fun '(k, c, a) => (mkKey att k c, mkItem (r_tid r) a)) es')) (att + 1)) as (ps & P2 & E2).
    { intros es2 H2. apply Hl. right. exact H2. }
    rewrite E2. exists (map (fun '(k, c, a) => (mkKey att k c, mkItem (r_tid r) a)) es' ++ ps). split.
    - apply Permutation_app; [|exact P2]. rewrite P1. unfold es1. destruct (att =? addTo).
      + rewrite map_map. apply Permutation_refl'. apply map_ext. intros [[k c] a]. reflexivity.
      + reflexivity.
    - unfold ins_all. rewrite fold_left_app. reflexivity.
  Qed.
  Lemma row_all acc (r : @hrow K A) : hrow_ok compareFn r ->
    exists ps, Permutation ps (row_pairs addTo r) /\ bulk_cols compareFn useAlt addTo acc r 1 (r_cols r) = ins_all acc ps.
  Proof.
    intro H. apply cols_all. intros es Hin. apply In_nth_error in Hin as (i & Hi). apply (H i es Hi).
  Qed.

  (** ** C16: what each key gets *)
  Lemma getentry_perm (e : @eacc K A) : Permutation (ea_list e) (snd (rumGetBAEntry cmpA useAlt addTo qsort e)).
  Proof.
    assert (OKi : total_cmp (fun a b : item A => rumCompareItemPointers (ip a) (ip b))) by (apply (cri_total false cmpA OKA)).
    unfold rumGetBAEntry. cbn [snd]. destruct (1 <? length (ea_list e))%nat; [|reflexivity].
    destruct (useAlt && (k_att (ea_key e) =? addTo)).
    - apply Hq. apply (cri_total true cmpA OKA).
    - destruct (ea_sort e); [apply Hq; exact OKi|reflexivity].
  Qed.
  Lemma given_dump k acc : Permutation (given_to compareFn k (map (rumGetBAEntry cmpA useAlt addTo qsort) acc)) (acc_for k acc).
  Proof.
    unfold given_to, acc_for. induction acc as [|e acc IH]; [reflexivity|]. cbn [map filter]. 
    replace (fst (rumGetBAEntry cmpA useAlt addTo qsort e)) with (ea_key e) by reflexivity.
    destruct (kcmp (ea_key e) k =? 0)%Z; [|exact IH]. cbn [map concat]. apply Permutation_app; [symmetry; apply getentry_perm|exact IH].
  Qed.
  Lemma given_app k a b : given_to compareFn (A := A) k (a ++ b) = given_to compareFn k a ++ given_to compareFn k b.
  Proof. unfold given_to. rewrite filter_app, map_app, concat_app. reflexivity. Qed.
  Lemma rows_for_cons k r rows : rows_for compareFn addTo k (r :: rows) = pairs_for k (row_pairs addTo r) ++ rows_for compareFn addTo k rows.
  Proof. unfold rows_for, pairs_for. cbn [flat_map]. rewrite filter_app, map_app. reflexivity. Qed.
  Lemma pairs_perm k ps ps' : Permutation ps ps' -> Permutation (pairs_for k ps) (pairs_for k ps').
  Proof.
    intro P. unfold pairs_for. apply Permutation_map. induction P as [|x l l' P IH|x y l|l l' l2 P1 IH1 P2 IH2]; cbn [filter]; auto.
    - destruct (isk k x); [constructor|]; exact IH.
    - destruct (isk k x), (isk k y); try apply perm_swap; reflexivity.
    - etransitivity; eauto.
  Qed.
  Lemma build_given k rows : forall acc, Forall (fun rf => hrow_ok compareFn (fst rf)) rows ->
    Permutation (given_to compareFn k (build_loop compareFn cmpA useAlt addTo qsort acc rows))
      (acc_for k acc ++ rows_for compareFn addTo k (map fst rows)).
  Proof.
    induction rows as [|[r fl] rows IH]; intros acc H; cbn [build_loop map].
    - rewrite given_dump. unfold rows_for. cbn. rewrite app_nil_r. reflexivity.
    - apply Forall_cons_iff in H as [Hr H]. cbn [fst] in *. destruct (row_all acc r Hr) as (ps & P & E). rewrite E.
      rewrite rows_for_cons. destruct fl.
      + rewrite given_app, given_dump, (IH [] H), ins_all_for, (pairs_perm k _ _ P). cbn [acc_for filter map concat app].
        rewrite <- app_assoc. reflexivity.
      + rewrite (IH _ H), ins_all_for, (pairs_perm k _ _ P). rewrite <- app_assoc. reflexivity.
  Qed.
  Lemma build_rows k rows : Forall (fun rf => hrow_ok compareFn (fst rf)) rows ->
    Permutation (given_to compareFn k (build_calls compareFn cmpA useAlt addTo qsort rows)) (rows_for compareFn addTo k (map fst rows)).
  Proof. intro H. apply (build_given k rows [] H). Qed.

  (** ** C39: each batch is in index order *)
  Definition ple (a b : iptr) : Prop := (rumCompareItemPointers a b <= 0)%Z.
  Definition wsorted (l : list (item A)) : Prop := StronglySorted (fun a b => ple (ip a) (ip b)) l.
  Let OKi : total_cmp (fun a b : item A => rumCompareItemPointers (ip a) (ip b)) := cri_total false cmpA OKA.
  Let OKp : total_cmp rumCompareItemPointers.
  Proof.
    split.
    - intro x. apply (tc_refl _ OKi (mkItem x None)).
    - intros x y. apply (tc_anti _ OKi (mkItem x None) (mkItem y None)).
    - intros x y z. apply (tc_trans _ OKi (mkItem x None) (mkItem y None) (mkItem z None)).
  Qed.
  Lemma wsorted_snoc l x : wsorted l -> (forall y, In y l -> ple (ip y) (ip x)) -> wsorted (l ++ [x]).
  Proof.
    induction 1 as [|y l Hs IH Hf]; intro H; cbn [app]; [repeat constructor|]. constructor.
    - apply IH. intros z Hz. apply H. right. exact Hz.
    - apply Forall_app. split; [exact Hf|]. constructor; [apply H; left; reflexivity|constructor].
  Qed.
  Lemma wsorted_last l d y : wsorted l -> In y l -> ple (ip y) (ip (last l d)).
  Proof.
    induction 1 as [|x l Hs IH Hf]; intro Hy; [destruct Hy|]. destruct l as [|x' l].
    - destruct Hy as [<-|[]]. unfold ple. cbn. rewrite (tc_refl _ OKp). lia.
    - change (last (x :: x' :: l) d) with (last (x' :: l) d). destruct Hy as [<-|Hy]; [|apply IH; exact Hy].
      rewrite Forall_forall in Hf. apply Hf. destruct (@exists_last _ (x' :: l)) as (l0 & z & E); [discriminate|]. rewrite E, last_last. apply in_app_iff. right. left. reflexivity.
  Qed.
  (** invariant of an accumulator entry; [asc]: rows arrive in address order, [t] the latest *)
  Definition einv (asc : bool) (t : iptr) (e : @eacc K A) : Prop :=
    (useAlt = false -> ea_sort e = false -> wsorted (ea_list e)) /\
    (asc = true -> wsorted (ea_list e) /\ forall x, In x (ea_list e) -> ple (ip x) t).
  Lemma einv_combine asc t e it : einv asc t e -> ip it = t -> einv asc t (rumCombineData useAlt e it).
  Proof.
    intros [H1 H2] Ht. unfold rumCombineData. split; cbn [ea_sort ea_list].
    - intros Hu. rewrite Hu. cbn [negb andb]. destruct (ea_sort e) eqn:Es; cbn [negb]; [discriminate|]. intro Hc. apply wsorted_snoc; [auto|].
      intros y Hy. unfold ple. apply (tc_trans _ OKp _ (ip (last (ea_list e) it))).
      + apply wsorted_last; [auto|exact Hy].
      + destruct (Z.ltb_spec 0 (rumCompareItemPointers (ip (last (ea_list e) it)) (ip it))); [discriminate|assumption].
    - intro Ha. destruct (H2 Ha) as [W L]. split.
      + apply wsorted_snoc; [exact W|]. rewrite Ht. exact L.
      + intros x Hx. apply in_app_iff in Hx as [Hx|[<-|[]]]; [auto|]. rewrite Ht. unfold ple. rewrite (tc_refl _ OKp). lia.
  Qed.
  Lemma einv_new asc t k it : ip it = t -> einv asc t (newEntry useAlt addTo k it).
  Proof.
    intro Ht. split; cbn.
    - intros _ _. repeat constructor.
    - intros _. split; [repeat constructor|]. intros x [<-|[]]. rewrite Ht. unfold ple. rewrite (tc_refl _ OKp). lia.
  Qed.
  Lemma einv_rbt asc t acc k it : Forall (einv asc t) acc -> ip it = t -> Forall (einv asc t) (rbt acc k it).
  Proof.
    intros H Ht. induction H as [|e r He Hr IH]; cbn [rbt_insert].
    - constructor; [apply einv_new; exact Ht|constructor].
    - destruct (kcmp k (ea_key e) =? 0)%Z; [constructor; [apply einv_combine; assumption|exact Hr]|].
      destruct (kcmp k (ea_key e) <? 0)%Z; [constructor; [apply einv_new; exact Ht|constructor; assumption]|constructor; assumption].
  Qed.
  Lemma einv_all asc t ps : forall acc, Forall (einv asc t) acc -> (forall p, In p ps -> ip (snd p) = t) -> Forall (einv asc t) (ins_all acc ps).
  Proof.
    induction ps as [|p ps IH]; intros acc H Hp; [exact H|]. cbn [ins_all fold_left]. apply IH.
    - apply einv_rbt; [exact H|]. apply Hp. left. reflexivity.
    - intros q Hin. apply Hp. right. exact Hin.
  Qed.
  Lemma col_pairs_tid (r : @hrow K A) cols : forall att p, In p (col_pairs addTo r att cols) -> ip (snd p) = r_tid r.
  Proof.
    induction cols as [|es cols IH]; intros att p; cbn [col_pairs]; [intros []|]. intro H. apply in_app_iff in H as [H|H]; [|eauto].
    apply in_map_iff in H as ([[k c] a] & <- & _). reflexivity.
  Qed.
  Lemma einv_le asc t t' e : einv asc t e -> (asc = true -> ple t t') -> einv asc t' e.
  Proof.
    intros [H1 H2] Hle. split; [exact H1|]. intro Ha. destruct (H2 Ha) as [W L]. split; [exact W|]. intros x Hx.
    apply (tc_trans _ OKp _ t); [apply L; exact Hx|apply Hle; exact Ha].
  Qed.
  (** per key at most one item per row *)
  Lemma fop_app {T} (R : T -> T -> Prop) l1 l2 : ForallOrdPairs R l1 -> ForallOrdPairs R l2 -> (forall x y, In x l1 -> In y l2 -> R x y) -> ForallOrdPairs R (l1 ++ l2).
  Proof.
    induction 1 as [|x l1 Hf H1 IH]; intros H2 H; [exact H2|]. cbn [app]. constructor.
    - apply Forall_app. split; [exact Hf|]. apply Forall_forall. intros y Hy. apply H; [left; reflexivity|exact Hy].
    - apply IH; [exact H2|]. intros a b Ha. apply H. right. exact Ha.
  Qed.
  Lemma col_pairs_att (r : @hrow K A) cols : forall att p, In p (col_pairs addTo r att cols) -> att <= k_att (fst p).
  Proof.
    induction cols as [|es cols IH]; intros att p; cbn [col_pairs]; [intros []|]. intro H. apply in_app_iff in H as [H|H].
    - apply in_map_iff in H as ([[k c] a] & <- & _). cbn. lia.
    - apply IH in H. lia.
  Qed.
  Lemma col_pairs_distinct (r : @hrow K A) cols : forall i,
    (forall j es, nth_error cols j = Some es -> ssorted (fun a b : @stored K A => rumCompareEntries (compareFn (N.of_nat (i + j) + 1)) (fst (fst a)) (snd (fst a)) (fst (fst b)) (snd (fst b))) es) ->
    ForallOrdPairs (fun p q => kcmp (fst p) (fst q) <> 0%Z) (col_pairs addTo r (N.of_nat i + 1) cols).
  Proof.
    induction cols as [|es cols IH]; intros i H; cbn [col_pairs]; [constructor|]. apply fop_app.
    - specialize (H 0%nat es eq_refl). rewrite Nat.add_0_r in H. clear IH. induction H as [|[[k c] a] es Hs IH Hf]; cbn [map]; [constructor|].
      constructor; [|exact IH]. rewrite Forall_map. eapply Forall_impl; [|exact Hf]. intros [[k' c'] a'] Hc. cbn in Hc.
      unfold rumCompareAttEntries. cbn [fst k_att k_val k_cat]. rewrite N.eqb_refl. cbn [negb]. lia.
    - replace (N.of_nat i + 1 + 1) with (N.of_nat (S i) + 1) by lia. apply IH. intros j es' Hj. specialize (H (S j) es' Hj).
      replace (i + S j)%nat with (S i + j)%nat in H by lia. exact H.
    - intros p q Hp Hq' E. apply in_map_iff in Hp as ([[k c] a] & <- & _). apply col_pairs_att in Hq'. cbn [fst] in E.
      apply att_order in E as (E & _). cbn in E. lia.
  Qed.
  Lemma filter_one ps k : ForallOrdPairs (fun p q : ekey K * item A => kcmp (fst p) (fst q) <> 0%Z) ps -> (length (filter (isk k) ps) <= 1)%nat.
  Proof.
    induction 1 as [|p ps Hf H IH]; cbn [filter]; [simpl; lia|]. destruct (kcmp (fst p) k =? 0)%Z eqn:E; [|exact IH].
    apply Z.eqb_eq in E. replace (filter (isk k) ps) with (@nil (ekey K * item A)); [simpl; lia|]. symmetry.
    clear IH H. induction ps as [|q ps IH]; [reflexivity|]. apply Forall_cons_iff in Hf as [Hq' Hf]. cbn [filter].
    destruct (Z.eqb_spec (kcmp (fst q) k) 0) as [E'|_]; [|apply IH; exact Hf]. exfalso. apply Hq'.
    assert (kcmp k (fst q) = 0%Z) by (apply (cmp_sym_eq _ OK); exact E'). pose proof (cmp_eq_l _ OK (fst p) k (fst q) E). lia.
  Qed.
  Lemma rows_for_nodup k (rows : list (@hrow K A)) : NoDup (map r_tid rows) -> Forall (hrow_ok compareFn) rows ->
    NoDup (map ip (rows_for compareFn addTo k rows)) /\ forall t, In t (map ip (rows_for compareFn addTo k rows)) -> In t (map r_tid rows).
  Proof.
    induction rows as [|r rows IH]; intros Hn Ho; [split; [constructor|intros ? []]|].
    cbn [map] in Hn. apply NoDup_cons_iff in Hn as [Hr Hn]. apply Forall_cons_iff in Ho as [Hro Ho]. destruct (IH Hn Ho) as [I1 I2].
    rewrite rows_for_cons, map_app.
    assert (T : forall t, In t (map ip (pairs_for k (row_pairs addTo r))) -> t = r_tid r).
    { intros t Ht. apply in_map_iff in Ht as (x & <- & Hx). apply in_map_iff in Hx as (p & <- & Hp). apply filter_In in Hp as [Hp _].
      eapply col_pairs_tid. exact Hp. }
    split.
    - apply nodup_app2; [|exact I1|].
      + unfold pairs_for. rewrite map_map.
        assert (L : (length (filter (isk k) (row_pairs addTo r)) <= 1)%nat).
        { apply filter_one. apply (col_pairs_distinct r (r_cols r) 0). intros j es Hj. apply (Hro j es Hj). }
        destruct (filter (isk k) (row_pairs addTo r)) as [|a [|b l]]; cbn [map]; [constructor|repeat constructor; intros []|simpl in L; lia].
      + intros t Ht1 Ht2. apply T in Ht1. subst t. apply Hr. apply I2. exact Ht2.
    - intros t Ht. apply in_app_iff in Ht as [Ht|Ht]; [left; symmetry; apply T; exact Ht|right; apply I2; exact Ht].
  Qed.
  Lemma wsorted_strict (cmp : item A -> item A -> Z) l : StronglySorted (fun a b => (cmp a b <= 0)%Z) l -> NoDup (map ip l) ->
    (forall a b, cmp a b = 0%Z -> ip a = ip b) -> ssorted cmp l.
  Proof.
    intros H Hn Hc. induction H as [|x l Hs IH Hf]; [constructor|]. cbn [map] in Hn. apply NoDup_cons_iff in Hn as [Hx Hn].
    apply ssorted_cons; [apply IH; exact Hn|]. rewrite Forall_forall in *. intros y Hy. specialize (Hf y Hy).
    assert (cmp x y <> 0)%Z; [|lia]. intro E. apply Hx. rewrite (Hc x y E). apply in_map. exact Hy.
  Qed.
  Definition asc_rows (asc : bool) (l : list iptr) : Prop := asc = true -> StronglySorted ple l.
  Lemma build_sorted rows : forall asc acc done, Forall (hrow_ok compareFn) done -> Forall (fun rf => hrow_ok compareFn (fst rf)) rows ->
    NoDup (map r_tid (done ++ map fst rows)) -> (asc = true -> StronglySorted ple (map r_tid (done ++ map fst rows))) ->
    (forall k, Permutation (acc_for k acc) (rows_for compareFn addTo k done)) ->
    (forall t, (forall r, In r done -> asc = true -> ple (r_tid r) t) -> Forall (einv asc t) acc) ->
    forall k l, In (k, l) (build_loop compareFn cmpA useAlt addTo qsort acc rows) ->
    (useAlt = false \/ k_att k = addTo \/ asc = true) -> ssorted (compareRumItem (useAlt && (k_att k =? addTo)) cmpA) l.
  Proof.
    assert (OneA : forall (asc : bool) (acc : list (@eacc K A)) done t, Forall (hrow_ok compareFn) done -> NoDup (map r_tid done) ->
      (forall k, Permutation (acc_for k acc) (rows_for compareFn addTo k done)) -> Forall (einv asc t) acc ->
      forall k l, In (k, l) (map (rumGetBAEntry cmpA useAlt addTo qsort) acc) -> (useAlt = false \/ k_att k = addTo \/ asc = true) ->
      ssorted (compareRumItem (useAlt && (k_att k =? addTo)) cmpA) l).
    { intros asc acc done t Ho Hn HP HE k l Hin Hc. apply in_map_iff in Hin as (e & Ee & He).
      pose proof (getentry_perm e) as PG. rewrite Ee in PG. cbn [snd] in PG. injection Ee as Ek El. subst k.
      rewrite Forall_forall in HE. destruct (HE e He) as [E1 E2].
      assert (Hnd : NoDup (map ip l)).
      { eapply Permutation_NoDup; [apply Permutation_map; exact PG|].
        destruct (rows_for_nodup (ea_key e) done Hn Ho) as [Hnd _].
        assert (Hnd2 : NoDup (map ip (acc_for (ea_key e) acc))) by (eapply Permutation_NoDup; [apply Permutation_map, Permutation_sym, HP|exact Hnd]).
        apply in_split in He as (a1 & a2 & ->). unfold acc_for in Hnd2. rewrite filter_app in Hnd2. cbn [filter] in Hnd2. rewrite (tc_refl _ OK) in Hnd2. cbn in Hnd2.
        rewrite map_app, concat_app in Hnd2. cbn [map concat] in Hnd2. rewrite !map_app in Hnd2. apply nodup_right in Hnd2. apply nodup_left in Hnd2. exact Hnd2. }
      assert (Hcmp : forall b (x y : item A), compareRumItem b cmpA x y = 0%Z -> ip x = ip y).
      { assert (HI : forall p q, rumCompareItemPointers p q = 0%Z -> p = q).
        { intros [b1 o1] [b2 o2]. unfold rumCompareItemPointers. cbn. destruct (N.eqb_spec b1 b2), (N.eqb_spec o1 o2); subst; auto; destruct (_ <? _); discriminate. }
        intros b [p a] [q c]. unfold compareRumItem. cbn. destruct b; [|apply HI]. destruct a, c; try discriminate; [|apply HI].
        destruct (Z.eqb_spec (cmpA a a0) 0); [apply HI|congruence]. }
      apply wsorted_strict; [|exact Hnd|apply Hcmp].
      destruct (Nat.ltb_spec 1 (length (ea_list e))) as [L|L].
      - destruct (useAlt && (k_att (ea_key e) =? addTo)) eqn:Eu.
        + subst l. apply Hq. apply (cri_total true cmpA OKA).
        + destruct (ea_sort e) eqn:Es.
          * subst l. destruct (Hq (fun a b => rumCompareItemPointers (ip a) (ip b)) (ea_list e) OKi) as [_ HS]. exact HS.
          * subst l. destruct Hc as [Hc|[Hc|Hc]]; [exact (E1 Hc eq_refl)| |exact (proj1 (E2 Hc))].
            rewrite Hc, N.eqb_refl, andb_true_r in Eu. exact (E1 Eu eq_refl).
      - subst l. destruct (ea_list e) as [|x [|y l]]; [constructor|repeat constructor|simpl in L; lia]. }
    induction rows as [|[r fl] rows IH]; intros asc acc done Ho Hr Hn Ha HP HE k l Hin Hc; cbn [build_loop] in Hin.
    - rewrite app_nil_r in Hn, Ha. set (t := last (map r_tid done) (mkIp 0 0)).
      apply (OneA asc acc done t); auto. apply HE. intros r Hin' Hasc. specialize (Ha Hasc).
      assert (W : forall l, StronglySorted ple l -> forall x d, In x l -> ple x (last l d)).
      { clear -OKp. induction 1 as [|y l Hs IH Hf]; intros x d Hx; [destruct Hx|]. destruct l as [|z l].
        - destruct Hx as [<-|[]]. unfold ple. cbn. rewrite (tc_refl _ OKp). lia.
        - change (last (y :: z :: l) d) with (last (z :: l) d). destruct Hx as [<-|Hx]; [|apply IH; exact Hx].
          rewrite Forall_forall in Hf. apply Hf. destruct (@exists_last _ (z :: l)) as (l0 & w & E); [discriminate|]. rewrite E, last_last. apply in_app_iff. right. left. reflexivity. }
      apply W; [exact Ha|]. apply in_map. exact Hin'.
    - apply Forall_cons_iff in Hr as [Hr0 Hr]. cbn [map fst] in *. destruct (row_all acc r Hr0) as (ps & P & E). rewrite E in Hin.
      assert (Hpl : forall r', In r' done -> asc = true -> ple (r_tid r') (r_tid r)).
      { intros r' Hr' Hasc. specialize (Ha Hasc). rewrite map_app in Ha. cbn [map] in Ha. clear -Ha Hr'.
        induction done as [|d done IH]; [destruct Hr'|]. cbn [map app] in Ha. inversion Ha as [|? ? Hs Hf]; subst. destruct Hr' as [<-|Hr']; [|apply IH; assumption].
        rewrite Forall_forall in Hf. apply Hf. apply in_app_iff. right. left. reflexivity. }
      assert (HE' : Forall (einv asc (r_tid r)) (ins_all acc ps)).
      { apply einv_all; [apply HE; exact Hpl|]. intros p Hp. apply (Permutation_in _ P) in Hp. eapply col_pairs_tid. exact Hp. }
      assert (HP' : forall k, Permutation (acc_for k (ins_all acc ps)) (rows_for compareFn addTo k (done ++ [r]))).
      { intro k0. rewrite ins_all_for, (HP k0), (pairs_perm k0 _ _ P). unfold rows_for, pairs_for. rewrite flat_map_app, filter_app, map_app. cbn [flat_map]. rewrite app_nil_r. reflexivity. }
      replace (done ++ r :: map fst rows) with ((done ++ [r]) ++ map fst rows) in Hn, Ha by (rewrite <- app_assoc; reflexivity).
      assert (Ho' : Forall (hrow_ok compareFn) (done ++ [r])) by (apply Forall_app; split; [exact Ho|constructor; [exact Hr0|constructor]]).
      destruct fl.
      + apply in_app_iff in Hin as [Hin|Hin].
        * apply (OneA asc (ins_all acc ps) (done ++ [r]) (r_tid r)); auto. rewrite map_app in Hn. apply nodup_left in Hn. exact Hn.
        * apply (IH asc [] []); auto.
          -- rewrite map_app in Hn. apply nodup_right in Hn. exact Hn.
          -- intro Hasc. specialize (Ha Hasc). rewrite map_app in Ha. clear -Ha. induction (map r_tid (done ++ [r])) as [|x l' IHl]; [exact Ha|]. apply IHl. inversion Ha; assumption.
      + apply (IH asc (ins_all acc ps) (done ++ [r])); auto. intros t Ht. eapply Forall_impl; [|exact HE']. intros e He. apply (einv_le asc (r_tid r)); [exact He|].
        intro Hasc. apply Ht; [|exact Hasc]. apply in_app_iff. right. left. reflexivity.
  Qed.
End Acc.

(** row-by-row insertion gives the keys the same rows *)
Lemma insert_given {K A} (compareFn : N -> K -> K -> Z) addTo k (rows : list (@hrow K A)) :
  given_to compareFn k (flat_map (insert_calls addTo) rows) = rows_for compareFn addTo k rows.
Proof.
  assert (E : forall r : @hrow K A, insert_calls addTo r = map (fun p => (fst p, [snd p])) (row_pairs addTo r)).
  { intro r. unfold insert_calls, row_pairs. generalize 1. induction (r_cols r) as [|es cols IH]; intro att; [reflexivity|].
    cbn [insert_cols col_pairs]. rewrite map_app, map_map, IH. f_equal. apply map_ext. intros [[k0 c] a]. reflexivity. }
  unfold given_to, rows_for. induction rows as [|r rows IH]; [reflexivity|]. cbn [flat_map].
  rewrite !filter_app, !map_app, concat_app, IH. f_equal. rewrite E.
  induction (row_pairs addTo r) as [|p ps IHp]; [reflexivity|]. cbn [map filter fst]. destruct (rumCompareAttEntries compareFn (fst p) k =? 0)%Z; [|exact IHp].
  cbn [map concat snd app]. f_equal. exact IHp.
Qed.
Lemma build_calls_sorted {K A} (compareFn : N -> K -> K -> Z) (cmpA : A -> A -> Z) useAlt addTo qsort (rows : list (@hrow K A * bool)) :
  (forall n, total_cmp (compareFn n)) -> total_cmp cmpA -> sorter qsort ->
  Forall (fun rf => hrow_ok compareFn (fst rf)) rows -> NoDup (map (fun rf => r_tid (fst rf)) rows) ->
  forall k l, In (k, l) (build_calls compareFn cmpA useAlt addTo qsort rows) ->
  (useAlt = false \/ k_att k = addTo \/ StronglySorted (fun s t => (rumCompareItemPointers s t <= 0)%Z) (map (fun rf => r_tid (fst rf)) rows)) ->
  ssorted (compareRumItem (useAlt && (k_att k =? addTo)) cmpA) l.
Proof.
  intros OKk OKA Hq Ho Hn k l Hin Hc.
  assert (Hn' : NoDup (map r_tid ([] ++ map fst rows))) by (cbn; rewrite map_map; exact Hn).
  assert (G : forall asc : bool, (asc = true -> StronglySorted ple (map r_tid ([] ++ map fst rows))) ->
    (useAlt = false \/ k_att k = addTo \/ asc = true) -> ssorted (compareRumItem (useAlt && (k_att k =? addTo)) cmpA) l).
  { intros asc Ha Hc'. apply (build_sorted compareFn OKk cmpA OKA useAlt addTo qsort Hq rows asc [] [] (Forall_nil _) Ho Hn' Ha) with (k := k); auto. }
  destruct Hc as [Hc|[Hc|Hc]].
  - apply (G false); [discriminate|auto].
  - apply (G false); [discriminate|auto].
  - apply (G true); [|auto]. intros _. cbn. rewrite map_map. exact Hc.
Qed.

(** a sort *)
Fixpoint ins_g {T} (cmp : T -> T -> Z) (x : T) (l : list T) : list T :=
  match l with
  | [] => [x]
  | y :: r => if (cmp x y <=? 0)%Z then x :: l else y :: ins_g cmp x r
  end.
Definition isort {T} (cmp : T -> T -> Z) (l : list T) : list T := fold_right (ins_g cmp) [] l.
Lemma isort_sorter {T} : sorter (@isort T).
Proof.
  intros cmp l OK.
  assert (P : forall x r, Permutation (x :: r) (ins_g cmp x r)).
  { induction r as [|y r IH]; [reflexivity|]. cbn [ins_g]. destruct (_ <=? 0)%Z; [reflexivity|]. rewrite <- IH. constructor. }
  split.
  - induction l as [|x l IH]; [reflexivity|]. cbn [isort fold_right]. rewrite <- P. constructor. exact IH.
  - induction l as [|x l IH]; [constructor|]. cbn [isort fold_right]. fold (isort cmp l). revert IH. generalize (isort cmp l).
    induction l0 as [|y r IH]; intro Hs; [repeat constructor|]. cbn [ins_g]. inversion Hs; subst. destruct (Z.leb_spec (cmp x y) 0).
    + constructor; [exact Hs|]. constructor; [assumption|]. eapply Forall_impl; [|exact H2]. intros z Hz. cbn beta in Hz. apply (tc_trans _ OK x y z); lia.
    + constructor; [apply IH; assumption|]. rewrite <- P. constructor; [|assumption].
      assert (cmp y x < 0)%Z by (apply (cmp_gt_lt _ OK); lia). lia.
Qed.

(** examples: integer keys, nat attached values *)
Definition zf (n : N) (x y : Z) : Z := (x - y)%Z.
Definition nf (x y : nat) : Z := (Z.of_nat x - Z.of_nat y)%Z.
Lemma zf_total n : total_cmp (zf n).
Proof. unfold zf. split; intros; lia. Qed.
Lemma nf_total : total_cmp nf.
Proof. unfold nf. split; intros; lia. Qed.
Definition exrow (b : N) (ks : list Z) (a : nat) : @hrow Z nat :=
  mkRow (mkIp b 1) [map (fun k => (k, CatNormKey, None)) ks; [(7%Z, CatNormKey, None)]] (Some a).
Definition exrows : list (@hrow Z nat * bool) :=
  [(exrow 5 [1; 2; 4]%Z 10, false); (exrow 3 [2; 4]%Z 11, true); (exrow 9 [1; 4]%Z 9, false)].
Lemma exrows_ok : Forall (fun rf => hrow_ok zf (fst rf)) exrows.
Proof.
  unfold exrows.
  assert (S : forall (b : N) ks a, (N.of_nat (length ks) < 2 ^ 31)%N -> ssorted (fun x y : Z => (x - y)%Z) ks -> hrow_ok zf (exrow b ks a)).
  { intros b ks a Hl Hs [|[|i]] es E; cbn in E; [| |destruct i; discriminate]; injection E as <-.
    - split; [rewrite map_length; exact Hl|]. clear Hl. induction Hs; cbn; constructor; [assumption|].
      apply Forall_map. eapply Forall_impl; [|eassumption]. intros y Hy. exact Hy.
    - split; [reflexivity|]. repeat constructor. }
  repeat (apply Forall_cons; [apply S; [reflexivity|repeat constructor]|]). apply Forall_nil.
Qed.
Lemma unsorted_column :
  let calls := build_calls zf nf true 1 isort exrows in
  exists l, In (mkKey 2 7%Z CatNormKey, l) calls /\ ~ ssorted (compareRumItem false nf) l.
Proof.
  exists [mkItem (mkIp 5 1) None; mkItem (mkIp 3 1) None]. split; [vm_compute; tauto|].
  intro H. apply ssorted_inv in H as [_ H]. apply Forall_cons_iff in H as [H _]. vm_compute in H. discriminate.
Qed.
