(** C29, C30: arrays.  Vocabulary: ArraySpec.v, QuerySpec.v, OrderSpec.v; model: Array.v, IndexScan.v, OrderScan.v. *)
From Verif Require Import Base Ord OrdProof Codec Entries EntriesSpec Bulk BulkSpec BulkProof EntryTree IndexSpec IndexExamples
  ScanEntry Scan TidBitmap IndexScan LeafCodec VacTreeSpec VacIndex VacScanSpec LifeSpec QuerySpec LifeQuery QueryExamples OrderScan OrderSpec OrderExamples Array ArraySpec ArrayFloat ArrayProof ArrayQuery ArrayExamples.
From Coq Require Import NArith ZArith List Permutation Sorted Bool Lia SpecFloat.
Import ListNotations.
Local Open Scope Z_scope.

(** C29 (and the operator % of C30).  After CREATE INDEX and any INSERTs and VACUUMs, a query with any number of
    conditions &&, @>, <@, = and % (the threshold above zero) on array columns returns, once each, all rows
    that satisfy all of them; rows are left for recheck only if there is a condition <@ or =, and the
    conditions &&, @> and % hold of every row returned.  Empty arrays, NULLs and empty arguments included. *)
Theorem C29_array_queries : forall (K : Type) (compareFn : N -> K -> K -> Z) altOf attrOf cmpA rawSize (dflt : K) useAlt addTo built history ix,
  table_index compareFn altOf attrOf cmpA rawSize dflt useAlt addTo built history ix ->
  let table := rows_now built history in
  forall attach curKeyOrdering tuplesort junk joinFn canPre estimate sortEnts visit iterate tbmMax,
  sorter tuplesort -> junk_harmless compareFn history ix junk -> (forall f a, joinFn addTo = Some f -> f a a = a) -> sorts_entries useAlt addTo cmpA sortEnts ->
  forall (cmp : N -> K -> K -> Z) qsort (arr : N -> @hrow K datum -> option (list K)) t thr, sorter qsort ->
  forall conds, conds <> [] ->
  (forall s, In s conds -> array_column compareFn cmp qsort dflt table (ac_att s) (arr (ac_att s)) /\ ac_att s <> addTo /\ canPre (ac_att s) = false) ->
  (forall s, In s conds -> ac_op s = ASimilar -> SFltb fzero thr = true) ->
  exists out,
    queryScan dflt addTo attach curKeyOrdering compareFn useAlt cmpA tuplesort junk joinFn canPre estimate sortEnts visit iterate tbmMax ix
      (map (arrayClause cmp qsort t thr) conds) [] = Some out /\
    NoDup (map fst out) /\
    (forall p, In p (map fst out) -> exists r, In r table /\ r_tid r = p) /\
    (forall r, In r table -> (forall s, In s conds -> array_holds cmp t thr arr r s) -> In (r_tid r) (map fst out)) /\
    (forall r re, In r table -> In (r_tid r, re) out ->
       (re = true <-> exists s, In s conds /\ checked_again (ac_op s) = true) /\
       forall s, In s conds -> checked_again (ac_op s) = false -> array_holds cmp t thr arr r s).
Proof. exact array_query. Qed.
Print Assumptions C29_array_queries.

(** Six rows {2,1,2}, {3,2}, {}, NULL, {5}, {3,1,2}: the hypotheses hold; && {3,2,3}, @> {2,3}, @> {},
    <@ {2,3}, = {3,2}, and % {3,2} together with && {1}. *)
Example C29_hypotheses_met :
  table_index zf (alt2 0) val4 dcmp ksz 0%Z false 0 [] (map EIns atable) aix /\ sorts_entries false 0 dcmp (sortDown false 0 dcmp) /\
  array_column zf zf isort 0 atable 1 (arr_of 1) /\ map (arr_of 1) atable = arrays /\ SFltb fzero half = true /\
  option_map (map (fun x => (blk (fst x), snd x))) (a_query half [mkAcond 1%N AOverlap [3; 2; 3]]) = Some [(1, false); (2, false); (6, false)]%N /\
  option_map (map (fun x => (blk (fst x), snd x))) (a_query half [mkAcond 1%N AContains [2; 3]]) = Some [(2, false); (6, false)]%N /\
  option_map (map (fun x => (blk (fst x), snd x))) (a_query half [mkAcond 1%N AContains []]) = Some [(1, false); (2, false); (3, false); (5, false); (6, false)]%N /\
  option_map (map (fun x => (blk (fst x), snd x))) (a_query half [mkAcond 1%N AContained [2; 3]]) = Some [(1, true); (2, true); (3, true)]%N /\
  option_map (map (fun x => (blk (fst x), snd x))) (a_query half [mkAcond 1%N AEqual [3; 2]]) = Some [(2, true)]%N /\
  option_map (map (fun x => (blk (fst x), snd x))) (a_query half [mkAcond 1%N ASimilar [3; 2]; mkAcond 1%N AOverlap [1]]) = Some [(1, false); (6, false)]%N.
Proof.
  split; [exact aix_index|]. split; [intro ents; apply sortDown_ok; exact dcmp_total|]. split; [exact a_column|]. split; [reflexivity|]. split; [reflexivity|].
  destruct a_query_values as (H1 & H2 & H3 & H4 & H5 & H6 & _). repeat (split; [assumption|]). assumption.
Qed.

(** C30.  (1) The function behind % is true exactly of non-empty arrays whose similarity (of the numbers of
    different elements and of common ones) reaches the threshold, whatever the threshold. *)
Theorem C30_similar_function : forall (K : Type) (cmp : K -> K -> Z) qsort t thr a b, total_cmp cmp -> sorter qsort ->
  (anyarray_similar cmp qsort t thr a b = true <-> similar cmp t thr a b).
Proof. intros K cmp qsort t thr a b OK HQ. exact (similar_spec cmp OK qsort HQ t thr a b). Qed.
Print Assumptions C30_similar_function.
(** (2) The function behind <=>, for non-empty arrays: infinity without a common element, otherwise the inverse of
    the similarity. *)
Theorem C30_distance_function_partial : forall (K : Type) (cmp : K -> K -> Z) qsort t a b, total_cmp cmp -> sorter qsort ->
  a <> [] -> b <> [] -> far cmp t a b (anyarray_distance cmp qsort t a b).
Proof. intros K cmp qsort t a b OK HQ. exact (distance_spec cmp OK qsort HQ t a b). Qed.
Print Assumptions C30_distance_function_partial.
(** For every pair of arrays: 0 if one of them is empty. *)
Theorem C30_distance_of_all_arrays : forall (K : Type) (cmp : K -> K -> Z) qsort t a b, total_cmp cmp -> sorter qsort ->
  (a = [] \/ b = [] -> anyarray_distance cmp qsort t a b = S754_zero false) /\
  (a <> [] -> b <> [] -> far cmp t a b (anyarray_distance cmp qsort t a b)).
Proof.
  intros K cmp qsort t a b OK HQ. split; [|exact (distance_spec cmp OK qsort HQ t a b)].
  intros [-> | ->]; [reflexivity|]. destruct a; reflexivity.
Qed.
Print Assumptions C30_distance_of_all_arrays.
(** (3) ORDER BY column <=> array on an index, with conditions as in C29: the rows come in the order of the
    distances shown, which for rows not left for recheck are those of the function. *)
Theorem C30_order_by_array_distance : forall (K : Type) (compareFn : N -> K -> K -> Z) altOf attrOf cmpA rawSize (dflt : K) useAlt addTo built history ix,
  table_index compareFn altOf attrOf cmpA rawSize dflt useAlt addTo built history ix ->
  let table := rows_now built history in
  forall attach curKeyOrdering tuplesort junk joinFn canPre estimate sortEnts visit iterate tbmMax dcmp sortItems,
  sorter tuplesort -> junk_harmless compareFn history ix junk -> (forall f a, joinFn addTo = Some f -> f a a = a) -> sorts_entries useAlt addTo cmpA sortEnts ->
  total_cmp dcmp -> sorts_items sortItems ->
  forall (cmp : N -> K -> K -> Z) qsort (arr : N -> @hrow K datum -> option (list K)) t thr, sorter qsort ->
  forall conds orders, conds <> [] ->
  (forall s, In s conds -> array_column compareFn cmp qsort dflt table (ac_att s) (arr (ac_att s)) /\ ac_att s <> addTo /\ canPre (ac_att s) = false) ->
  (forall o, In o orders -> array_column compareFn cmp qsort dflt table (fst o) (arr (fst o)) /\ fst o <> addTo /\ fst o <> attach /\ curKeyOrdering (fst o) = false /\ snd o <> []) ->
  (forall s, In s conds -> ac_op s = ASimilar -> SFltb fzero thr = true) ->
  exists out,
    orderedScan dcmp finf dflt addTo attach curKeyOrdering compareFn useAlt cmpA tuplesort junk joinFn canPre estimate sortEnts visit iterate tbmMax sortItems ix
      (map (arrayClause cmp qsort t thr) conds) (map (fun o => arrayOrdering cmp qsort t (fst o) (snd o)) orders) = Some out /\
    NoDup (map (fun s => fst (fst s)) out) /\
    (forall p, In p (map (fun s => fst (fst s)) out) -> exists r, In r table /\ r_tid r = p) /\
    (forall r, In r table -> (forall s, In s conds -> array_holds cmp t thr arr r s) -> In (r_tid r) (map (fun s => fst (fst s)) out)) /\
    StronglySorted (fun a b => lex_le dcmp (snd a) (snd b)) out /\
    (forall r re ds, In r table -> In (r_tid r, re, ds) out ->
       (re = true <-> exists s, In s conds /\ checked_again (ac_op s) = true) /\
       (forall s, In s conds -> checked_again (ac_op s) = false -> array_holds cmp t thr arr r s) /\
       (re = false -> Forall2 (fun o d => match arr (fst o) r with Some a => far (cmp (fst o)) t a (snd o) d | None => d = finf end) orders ds)).
Proof. exact array_order. Qed.
Print Assumptions C30_order_by_array_distance.

Example C30_hypotheses_met : total_cmp fcmp /\ sorts_items (@isort (@sitem float8)) /\
  option_map (map (fun x => (blk (fst (fst x)), snd x))) (a_order [mkAcond 1%N AContains []] [(1%N, [2; 3])]) =
    Some [(2%N, [S754_finite false 4503599627370496 (-52)]); (6%N, [S754_finite false 6755399441055744 (-52)]); (1%N, [S754_finite false 6755399441055744 (-51)]); (3%N, [finf]); (5%N, [finf])] /\
  anyarray_distance (zf 1) isort SmtJaccard [2; 1; 2] [2; 3] = S754_finite false 6755399441055744 (-51) /\
  anyarray_similar (zf 1) isort SmtCosine half [2; 1; 2] [2; 3] = true /\ anyarray_similar (zf 1) isort SmtJaccard half [2; 1; 2] [2; 3] = false.
Proof. split; [exact fcmp_total|]. split; [exact isort_items|]. split; [exact a_order_values|]. repeat split; vm_compute; reflexivity. Qed.

(** The settings and arrays left out do break the agreement.  (4) With the threshold 0 (allowed) the function is
    true of non-empty arrays without a common element; the index does not return them. *)
Theorem C30_zero_threshold_refuted :
  table_index zf (alt2 0) val4 dcmp ksz 0%Z false 0 [] (map EIns atable) aix /\
  exists r a, In r atable /\ arr_of 1 r = Some a /\ anyarray_similar (zf 1) isort SmtCosine fzero a [5] = true /\
    exists out, a_query fzero [mkAcond 1%N ASimilar [5]] = Some out /\ ~ In (r_tid r) (map fst out).
Proof.
  split; [exact aix_index|]. exists (arow 2 (Some [3; 2])), [3; 2]. split; [right; left; reflexivity|]. split; [reflexivity|]. split; [vm_compute; reflexivity|].
  eexists. split; [vm_compute; reflexivity|]. intros [H|[]]. discriminate H.
Qed.
Print Assumptions C30_zero_threshold_refuted.
(** (5) The distance of an empty array is 0 by the function and infinity by the index: the row the function puts
    first comes last. *)
Theorem C30_empty_array_distance_refuted :
  table_index zf (alt2 0) val4 dcmp ksz 0%Z false 0 [] (map EIns atable) aix /\
  exists r out d, In r atable /\ arr_of 1 r = Some [] /\ a_order [mkAcond 1%N AContains []] [(1%N, [2; 3])] = Some out /\ In (r_tid r, false, [d]) out /\
    d <> anyarray_distance (zf 1) isort SmtJaccard [] [2; 3] /\ anyarray_distance (zf 1) isort SmtJaccard [] [2; 3] = fzero.
Proof.
  split; [exact aix_index|]. exists (arow 3 (Some [])). eexists. exists finf. split; [right; right; left; reflexivity|]. split; [reflexivity|]. split; [vm_compute; reflexivity|].
  split; [right; right; right; left; reflexivity|]. split; [discriminate|reflexivity].
Qed.
Print Assumptions C30_empty_array_distance_refuted.
