(** Proofs for PropSort.v: the order of the found rows. *)
From Coq Require Import ZArith Arith List Lia Permutation Sorting.Sorted Bool Floats.SpecFloat.
From Verif Require Import Ord Base Array ArrayExamples BulkSpec OrderScan OrderSpec OrderScanProof Qsort QsortProof SortItems.
Import ListNotations.
Local Open Scope Z_scope.

Lemma sort_mem_perm {T} (cmp : T -> T -> Z) l : Permutation (sort_memtuples cmp l) l.
Proof. destruct l as [|x l]; [reflexivity|]. unfold sort_memtuples, sort_tuples. apply qsort_perm. lia. Qed.
Lemma sort_mem_sorted {T} (cmp : T -> T -> Z) (P : T -> Prop) l :
  (forall x y, P x -> P y -> (cmp x y < 0 <-> 0 < cmp y x)) ->
  (forall x y z, P x -> P y -> P z -> cmp x y <= 0 -> cmp y z <= 0 -> cmp x z <= 0) ->
  Forall P l -> StronglySorted (fun a b => cmp a b <= 0) (sort_memtuples cmp l).
Proof.
  intros Ha Ht H. destruct l as [|x l]; [constructor|]. unfold sort_memtuples, sort_tuples.
  apply (qsort_sorted x cmp P Ha Ht); [exact H|lia].
Qed.
Lemma sort_mem_sorter {T} : @sorter T sort_memtuples.
Proof.
  intros cmp l OK. split; [apply Permutation_sym, sort_mem_perm|]. apply (sort_mem_sorted cmp (fun _ => True)).
  - intros x y _ _. apply (tc_anti _ OK).
  - intros x y z _ _ _. apply (tc_trans _ OK).
  - apply Forall_forall. auto.
Qed.
Lemma sort_mem_items {T} : @sorts_items T sort_memtuples.
Proof.
  intros cmp l _ _ Ht Ha. split; [apply sort_mem_perm|]. apply (sort_mem_sorted cmp (fun x => In x l)); auto. apply Forall_forall. auto.
Qed.

(** ** float8 *)
Lemma fltcmp_sgn x y : x <> S754_nan -> y <> S754_nan -> fltcmp x y = Z.sgn (fcmp x y).
Proof.
  assert (Hp : forall p q, Pos.compare_cont Eq p q = Pos.compare p q) by reflexivity.
  intros Hx Hy. unfold fltcmp, SFltb.
  destruct x as [s|s| |s m e], y as [s'|s'| |s' m' e']; try congruence; destruct s, s'; try reflexivity; cbn [SFcompare]; rewrite ?Hp;
  unfold fcmp, lex2; cbn [fkey fst snd].
  - destruct (Z.compare_spec e e'), (Z.compare_spec e' e); try lia.
    + subst. replace (-1 - -1 =? 0) with true by reflexivity. replace (- e' - - e' =? 0) with true by lia.
      change (Pos.compare_cont Eq m' m) with (Pos.compare m' m); rewrite (Pos.compare_antisym m m'). destruct (Pos.compare_spec m m'); cbn [CompOpp]; lia.
    + replace (-1 - -1 =? 0) with true by reflexivity. destruct (Z.eqb_spec (- e - - e') 0); lia.
    + replace (-1 - -1 =? 0) with true by reflexivity. destruct (Z.eqb_spec (- e - - e') 0); lia.
  - destruct (Z.compare_spec e e'), (Z.compare_spec e' e); try lia.
    + subst. replace (1 - 1 =? 0) with true by reflexivity. replace (e' - e' =? 0) with true by lia.
      change (Pos.compare_cont Eq m' m) with (Pos.compare m' m); rewrite (Pos.compare_antisym m m'). destruct (Pos.compare_spec m m'); cbn [CompOpp]; lia.
    + replace (1 - 1 =? 0) with true by reflexivity. destruct (Z.eqb_spec (e - e') 0); lia.
    + replace (1 - 1 =? 0) with true by reflexivity. destruct (Z.eqb_spec (e - e') 0); lia.
Qed.
Definition nan_free (ds : list float8) : Prop := ~ In S754_nan ds.
Lemma ctr_fcmp : forall a b, nan_free a -> nan_free b -> comparetup_rum fltcmp a b = comparetup_rum fcmp a b.
Proof.
  induction a as [|x a IH]; intros [|y b] Ha Hb; cbn [comparetup_rum]; try reflexivity.
  rewrite IH by (intro; first [apply Ha; right; assumption|apply Hb; right; assumption]).
  rewrite fltcmp_sgn by (intro; subst; first [apply Ha; left; reflexivity|apply Hb; left; reflexivity]).
  cbv zeta. destruct (Z.sgn_spec (fcmp x y)) as [[? ->]|[[? ->]|[? ->]]];
  destruct (Z.ltb_spec (fcmp x y) 0), (Z.ltb_spec 0 (fcmp x y)); try lia; reflexivity.
Qed.
Lemma false_ordered n l : Forall (fun it : @sitem float8 => length (snd it) = n /\ nan_free (snd it)) l ->
  StronglySorted (fun a b => comparetup_false a b <= 0) (sort_memtuples comparetup_false l).
Proof.
  apply sort_mem_sorted; unfold comparetup_false.
  - intros x y [_ Hx] [_ Hy]. rewrite !ctr_fcmp by assumption. apply (ctr_anti fcmp fcmp_total).
  - intros x y z [Lx Hx] [Ly Hy] [Lz Hz]. rewrite !ctr_fcmp by assumption.
    rewrite !(ctr_lex fcmp) by congruence. apply (lex_trans fcmp fcmp_total).
Qed.
(** What a comparison not above zero means. *)
Lemma fltcmp_0 x y : fltcmp x y = 0 <-> SFltb x y = false /\ SFltb y x = false.
Proof. unfold fltcmp. destruct (SFltb x y), (SFltb y x); cbn; intuition lia. Qed.
Lemma fltb_anti x y : SFltb x y = true -> SFltb y x = false.
Proof.
  intro E1. destruct (SFltb y x) eqn:E2; [|reflexivity]. exfalso.
  assert (Hx : x <> S754_nan) by (intros ->; discriminate E1). assert (Hy : y <> S754_nan) by (intros ->; destruct x; discriminate E1).
  pose proof (fltcmp_sgn x y Hx Hy) as A. pose proof (fltcmp_sgn y x Hy Hx) as B. unfold fltcmp in A, B. rewrite E1 in A. rewrite E2 in B.
  pose proof (tc_anti _ fcmp_total x y). lia.
Qed.
Lemma ctr_not : forall a b k, comparetup_rum fltcmp a b <= 0 ->
  (forall m, (m < k)%nat -> SFltb (nth m a fzero) (nth m b fzero) = false) -> (k < length a)%nat -> (k < length b)%nat ->
  SFltb (nth k b fzero) (nth k a fzero) = false.
Proof.
  induction a as [|x a IH]; intros [|y b] k H He La Lb; cbn [length] in *; try lia.
  cbn [comparetup_rum] in H. cbv zeta in H. destruct k as [|k]; cbn [nth].
  - unfold fltcmp in H. destruct (SFltb x y) eqn:E1.
    + apply fltb_anti. exact E1.
    + destruct (SFltb y x); [cbn in H; lia|reflexivity].
  - apply (IH b k); try lia; [|intros m Hm; apply (He (S m)); lia].
    pose proof (He O ltac:(lia)) as E0. cbn [nth] in E0. unfold fltcmp in H. rewrite E0 in H. destruct (SFltb y x); cbn in H; [lia|exact H].
Qed.
Lemma ss_nth {T} (R : T -> T -> Prop) l : StronglySorted R l -> forall i j a b, (i < j)%nat -> nth_error l i = Some a -> nth_error l j = Some b -> R a b.
Proof.
  induction 1 as [|z m HS IH HF]; intros i j a b Hij Ha Hb; [destruct i; discriminate|].
  destruct i as [|i], j as [|j]; try lia; cbn [nth_error] in *.
  - injection Ha as <-. rewrite Forall_forall in HF. apply HF. eapply nth_error_In, Hb.
  - apply (IH i j); auto. lia.
Qed.
