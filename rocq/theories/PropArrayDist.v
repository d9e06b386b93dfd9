(** C54, of the distances of arrays: they are never a NaN, so ordering by them is well defined.  Model: Array.v. *)
From Coq Require Import ZArith List Lia Permutation Bool Floats.SpecFloat.
From Verif Require Import Ord Base Codec Array ArrayProof ArrayQuery BulkProof ArrayExamples BulkSpec OrderScan OrderSpec SortItems PropSort NanFree.
Import ListNotations.
Local Open Scope Z_scope.

Lemma filter_len {T} (f : T -> bool) l : (length (filter f l) <= length l)%nat.
Proof. induction l as [|x l IH]; [cbn; lia|]. cbn [filter length]. destruct (f x); cbn [length]; lia. Qed.
Section Sizes.
  Context {K : Type}.
  Variable cmp : K -> K -> Z.
  Variable qsort : (K -> K -> Z) -> list K -> list K.
  Lemma uniq_len dr s : (length (uniq_loop cmp dr s) <= length s)%nat.
  Proof. clear qsort. revert dr. induction s as [|x s IH]; intro dr; [cbn; lia|]. cbn [uniq_loop length]. destruct (negb _); cbn [length]; [specialize (IH x)|specialize (IH dr)]; lia. Qed.
  Lemma elems_len a : sorter qsort -> total_cmp cmp -> (length (elems cmp qsort a) <= length a)%nat.
  Proof.
    intros HQ OK. unfold elems, sortSimpleArray. assert (E : length (if (1 <? length a)%nat then qsort cmp a else a) = length a).
    { destruct (1 <? length a)%nat; [|reflexivity]. apply Permutation_length, Permutation_sym. exact (proj1 (HQ cmp a OK)). }
    revert E. generalize (if (1 <? length a)%nat then qsort cmp a else a). intros [|x s] E; cbn [uniqSimpleArray length] in *; [lia|]. pose proof (uniq_len x s). lia.
  Qed.
  Lemma intersect_len a : forall b, 0 <= intersect_loop cmp a b <= Z.of_nat (length a).
  Proof.
    clear qsort. induction a as [|x a IH]; intro b; [destruct b; cbn; lia|].
    induction b as [|y b IHb]; [cbn; lia|]. cbn [intersect_loop]. destruct (cmp x y <? 0); [specialize (IH (y :: b)); cbn [length]; lia|].
    destruct (0 <? cmp x y); [exact IHb|]. specialize (IH b). cbn [length]. lia.
  Qed.
End Sizes.

(** (6) The operator <=> on arrays that fit in memory gives a number or infinity, whichever of the three
    similarities is set. *)
Theorem C54_array_distance_no_nan : forall (K : Type) (cmp : K -> K -> Z) qsort t a b, total_cmp cmp -> sorter qsort ->
  Z.of_nat (length a) < 2 ^ 31 -> Z.of_nat (length b) < 2 ^ 31 -> anyarray_distance cmp qsort t a b <> S754_nan.
Proof.
  intros K cmp qsort t a b OK HQ Ha Hb. unfold anyarray_distance. destruct a as [|x a]; [discriminate|]. destruct b as [|y b]; [discriminate|].
  pose proof (nelems_pos cmp OK qsort HQ (x :: a) ltac:(discriminate)) as Pa. pose proof (nelems_pos cmp OK qsort HQ (y :: b) ltac:(discriminate)) as Pb.
  pose proof (elems_len cmp qsort (x :: a) HQ OK) as La. pose proof (elems_len cmp qsort (y :: b) HQ OK) as Lb.
  apply distance_num. apply similarity_num; unfold nelems in *; [lia|lia|]. unfold getNumOfIntersect.
  pose proof (intersect_len cmp (elems cmp qsort (x :: a)) (elems cmp qsort (y :: b))). lia.
Qed.
Print Assumptions C54_array_distance_no_nan.

(** Hence rows ordered by the distances of an array from several others: never does one come after a row with
    a larger vector. *)
Theorem C54_rows_in_order_of_array_distance : forall (K : Type) (cmp : K -> K -> Z) qsort t (queries : list (list K)) (rows : list (iptr * bool * list K)),
  total_cmp cmp -> sorter qsort -> Forall (fun q => Z.of_nat (length q) < 2 ^ 31) queries -> Forall (fun r => Z.of_nat (length (snd r)) < 2 ^ 31) rows ->
  let l := map (fun r => (fst r, map (anyarray_distance cmp qsort t (snd r)) queries) : @sitem float8) rows in
  forall i j a b, (i < j)%nat -> nth_error (sort_memtuples comparetup_false l) i = Some a -> nth_error (sort_memtuples comparetup_false l) j = Some b ->
  ~ smaller (snd b) (snd a).
Proof.
  intros K cmp qsort t queries rows OK HQ Hq Hr l. apply (C54_rows_in_order_of_distance (length queries)). unfold l. apply Forall_forall. intros it Hit.
  apply in_map_iff in Hit as (r & <- & Hin). cbn [snd]. split; [apply map_length|]. intro Hn. apply in_map_iff in Hn as (q & E & Hqi).
  rewrite Forall_forall in Hq, Hr. exact (C54_array_distance_no_nan K cmp qsort t (snd r) q OK HQ (Hr _ Hin) (Hq _ Hqi) E).
Qed.
Print Assumptions C54_rows_in_order_of_array_distance.

(** (7) Nor does the index's function for ORDER BY, if an element's attached value is the size of a non-empty
    array, which is what extract_anyarray gives. *)
Theorem C54_array_ordering_no_nan : forall t v, Z.of_nat (length v) < 2 ^ 31 ->
  (existsb isSet v = true -> 1 <= firstInfo v < 2 ^ 31) -> anyarray_ordering t v <> S754_nan.
Proof.
  intros t v Hv Hf. unfold anyarray_ordering. pose proof (filter_len isSet v) as Hl. destruct (Z.ltb_spec 0 (checks v)) as [Hc|Hc]; [|apply distance_num; discriminate].
  assert (E : existsb isSet v = true).
  { apply existsb_exists. unfold checks in Hc. destruct (filter isSet v) as [|o r] eqn:Ef; [cbn in Hc; lia|]. exists o. apply filter_In. rewrite Ef. left. reflexivity. }
  specialize (Hf E). apply distance_num. unfold checks in *. apply similarity_num; lia.
Qed.
Print Assumptions C54_array_ordering_no_nan.

(** (8) Where an element carries no attached value the size is taken to be -1, and the cosine distance is a NaN: the
    square root of a negative number. *)
Theorem C54_array_ordering_without_size_refuted : anyarray_ordering SmtCosine [Some None; None] = S754_nan.
Proof. vm_compute. reflexivity. Qed.
Print Assumptions C54_array_ordering_without_size_refuted.

Example C54_array_hypotheses_met : total_cmp (zf 1) /\ sorter (@isort Z) /\
  anyarray_distance (zf 1) isort SmtJaccard [2; 1; 2] [2; 3] = S754_finite false 6755399441055744 (-51) /\
  anyarray_distance (zf 1) isort SmtCosine [2; 1; 2] [4; 3] = finf /\
  existsb isSet [Some (Some (int32_datum 3)); None] = true /\ firstInfo [Some (Some (int32_datum 3)); None] = 3 /\
  anyarray_ordering SmtOverlap [Some (Some (int32_datum 3)); None] = of_int 1.
Proof. split; [apply zf_total|]. split; [apply isort_sorter|]. repeat split; vm_compute; reflexivity. Qed.

(** (9) In particular of every row whose element keys all carry the row's number of elements, as extract_anyarray gives
    them. *)
Theorem C54_array_ordering_of_row_no_nan : forall t n v, 1 <= n < 2 ^ 31 -> Z.of_nat (length v) < 2 ^ 31 ->
  Forall (fun o => o = None \/ o = Some (Some (int32_datum n))) v -> anyarray_ordering t v <> S754_nan.
Proof.
  intros t n v Hn Hv Hf. apply C54_array_ordering_no_nan; [exact Hv|]. clear Hv. intro Hs. assert (E : firstInfo v = n); [|lia].
  induction Hf as [|o v [-> | ->] Hf IH]; [discriminate Hs| |]; cbn [firstInfo info existsb isSet orb] in *; [exact (IH Hs)|]. apply int32_back. lia.
Qed.
Print Assumptions C54_array_ordering_of_row_no_nan.
