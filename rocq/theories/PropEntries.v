(** C18, C19: index keys.  Vocabulary: Ord.v, EntriesSpec.v; model: Entries.v. *)
From Verif Require Import Base Ord Entries EntriesSpec EntriesProof.
Local Open Scope Z_scope.

(** C18.  For a value with keys [es] the stored keys are strictly ascending (so distinct), each
    is one of the extracted keys with its own attached value, and every extracted key is stored. *)
Theorem C18_keys_stored_once : forall (K A : Type) (f : K -> K -> Z), total_cmp f ->
  forall qsort haveDups dflt (es : list (@keyEntry K A)), sorts f qsort haveDups -> es <> [] ->
  let cmp := fun a b : @stored K A => rumCompareEntries f (fst (fst a)) (snd (fst a)) (fst (fst b)) (snd (fst b)) in
  let out := rumExtractEntries f qsort haveDups dflt (Some es) in
  ssorted cmp out /\
  (forall s, In s out -> exists e, In e es /\ s = (e_datum e, if e_isnull e then CatNullKey else CatNormKey, e_add e)) /\
  (forall e, In e es -> exists s, In s out /\ cmp s (e_datum e, if e_isnull e then CatNullKey else CatNormKey, e_add e) = 0).
Proof. exact (fun K A f OK qsort hd dflt es => @extract_spec K A f OK qsort hd dflt es). Qed.
Print Assumptions C18_keys_stored_once.

(** C18, placeholders: a NULL value and a value without keys. *)
Theorem C18_placeholders : forall (K A : Type) (f : K -> K -> Z) qsort haveDups dflt,
  (exists k, rumExtractEntries (A := A) f qsort haveDups dflt None = [(k, CatNullItem, None)]) /\
  (exists k, rumExtractEntries (A := A) f qsort haveDups dflt (Some []) = [(k, CatEmptyItem, None)]).
Proof. exact (fun K A f qsort hd dflt => conj (ex_intro _ dflt eq_refl) (ex_intro _ dflt eq_refl)). Qed.
Print Assumptions C18_placeholders.

Example C18_hypotheses_met :
  let f := fun x y : Z => x - y in
  sorts f (@isort_e Z nat f) (fun _ => true) /\
  rumExtractEntries f (isort_e f) (fun _ => true) 0
    (Some [mkEntry 5 false (Some 1%nat); mkEntry 0 true None; mkEntry 3 false (Some 2%nat); mkEntry 5 false (Some 3%nat); mkEntry 0 true None]) =
  [(3, CatNormKey, Some 2%nat); (5, CatNormKey, Some 1%nat); (0, CatNullKey, None)].
Proof. exact (conj (isort_sorts _ zsub_total) eq_refl). Qed.

(** C19.  The key order is total ... *)
Theorem C19_keys_totally_ordered : forall (K : Type) (f : N -> K -> K -> Z),
  (forall n, total_cmp (f n)) -> total_cmp (rumCompareAttEntries f).
Proof. exact (fun K f => @att_total K f). Qed.
Print Assumptions C19_keys_totally_ordered.

(** ... and is: column, then regular key < NULL key < empty placeholder < NULL placeholder (the
    full-scan query placeholder before all), then the operator class's order. *)
Theorem C19_key_order : forall (K : Type) (f : N -> K -> K -> Z) (a b : ekey K),
  let rank c := match c with CatEmptyQuery => 0 | CatNormKey => 1 | CatNullKey => 2 | CatEmptyItem => 3 | CatNullItem => 4 end in
  (rumCompareAttEntries f a b < 0 <->
    (k_att a < k_att b)%N \/
    k_att a = k_att b /\ (rank (k_cat a) < rank (k_cat b) \/
      k_cat a = CatNormKey /\ k_cat b = CatNormKey /\ f (k_att a) (k_val a) (k_val b) < 0)) /\
  (rumCompareAttEntries f a b = 0 <->
    k_att a = k_att b /\ k_cat a = k_cat b /\ (k_cat a = CatNormKey -> f (k_att a) (k_val a) (k_val b) = 0)).
Proof. exact (fun K f => @att_order_rank K f). Qed.
Print Assumptions C19_key_order.

Example C19_hypotheses_met : (forall n : N, total_cmp (fun x y : Z => x - y)).
Proof. exact (fun _ => zsub_total). Qed.
