(** C16, C17, C39: index build.  Vocabulary: BulkSpec.v; model: Bulk.v. *)
From Verif Require Import Base Ord Entries Bulk BulkSpec BulkProof.
From Coq Require Import Permutation Sorted.
Local Open Scope N_scope.

(** C17.  For every number of keys the visiting order of the accumulator is a rearrangement of
    all array positions. *)
Theorem C17_every_key_visited_once : forall n, n < 2 ^ 31 ->
  Permutation (ba_visit n) (map N.of_nat (seq 0 (N.to_nat n))).
Proof. exact visit_perm. Qed.
Print Assumptions C17_every_key_visited_once.

Example C17_instance : ba_visit 11 = [7; 3; 1; 5; 9; 0; 2; 4; 6; 8; 10].
Proof. reflexivity. Qed.

(** C16.  Whatever the flush points (the booleans), the insertions a build makes give every key
    exactly the items of the rows that contain it. *)
Theorem C16_build_gives_each_key_its_rows : forall (K A : Type) (compareFn : N -> K -> K -> Z) (cmpA : A -> A -> Z) useAlt addTo qsort,
  (forall n, total_cmp (compareFn n)) -> total_cmp cmpA -> sorter qsort ->
  forall (rows : list (@hrow K A * bool)) (k : ekey K),
  Forall (fun rf => hrow_ok compareFn (fst rf)) rows ->
  Permutation (given_to compareFn k (build_calls compareFn cmpA useAlt addTo qsort rows))
    (rows_for compareFn addTo k (map fst rows)).
Proof. exact (fun K A f g u t q H1 H2 H3 rows k => build_rows f H1 g H2 u t q H3 k rows). Qed.
Print Assumptions C16_build_gives_each_key_its_rows.

(** The same items as when the rows are inserted one by one. *)
Theorem C16_same_as_row_by_row : forall (K A : Type) (compareFn : N -> K -> K -> Z) addTo (k : ekey K) (rows : list (@hrow K A)),
  given_to compareFn k (flat_map (insert_calls addTo) rows) = rows_for compareFn addTo k rows.
Proof. exact (fun K A => @insert_given K A). Qed.
Print Assumptions C16_same_as_row_by_row.

Example C16_hypotheses_met :
  (forall n, total_cmp (zf n)) /\ total_cmp nf /\ sorter (@isort (item nat)) /\
  Forall (fun rf => hrow_ok zf (fst rf)) exrows /\
  given_to zf (mkKey 1 4%Z CatNormKey) (build_calls zf nf true 1 isort exrows) =
    [mkItem (mkIp 5 1) (Some 10%nat); mkItem (mkIp 3 1) (Some 11%nat); mkItem (mkIp 9 1) (Some 9%nat)].
Proof. exact (conj zf_total (conj nf_total (conj isort_sorter (conj exrows_ok eq_refl)))). Qed.

(** C39.  Every batch handed over is strictly ascending in the order the index keeps for its
    column, for every arrival order of the heap rows: in an index without order_by_attach for
    all columns, with order_by_attach for the column that carries the attached value. For the
    other columns of an order_by_attach index only when rows arrive in address order. *)
Theorem C39_batches_sorted_partial : forall (K A : Type) (compareFn : N -> K -> K -> Z) (cmpA : A -> A -> Z) useAlt addTo qsort
    (rows : list (@hrow K A * bool)),
  (forall n, total_cmp (compareFn n)) -> total_cmp cmpA -> sorter qsort ->
  Forall (fun rf => hrow_ok compareFn (fst rf)) rows -> NoDup (map (fun rf => r_tid (fst rf)) rows) ->
  forall k l, In (k, l) (build_calls compareFn cmpA useAlt addTo qsort rows) ->
  (useAlt = false \/ k_att k = addTo \/
    StronglySorted (fun s t => (rumCompareItemPointers s t <= 0)%Z) (map (fun rf => r_tid (fst rf)) rows)) ->
  ssorted (compareRumItem (useAlt && (k_att k =? addTo)) cmpA) l.
Proof. exact (fun K A => @build_calls_sorted K A). Qed.
Print Assumptions C39_batches_sorted_partial.

(** C39 is false for the other columns of an order_by_attach index: the batch of key 7 of
    column 2 is handed over in arrival order (address 5 before address 3). *)
Theorem C39_other_column_unsorted_refuted :
  let calls := build_calls zf nf true 1 isort exrows in
  exists l, In (mkKey 2 7%Z CatNormKey, l) calls /\ ~ ssorted (compareRumItem false nf) l.
Proof. exact unsorted_column. Qed.
Print Assumptions C39_other_column_unsorted_refuted.
