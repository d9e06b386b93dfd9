(** C46, C37, C38: queries on a whole index.  Vocabulary: QuerySpec.v; model: IndexScan.v, Scan.v,
    ScanEntry.v, EntryTree.v, PostingTree.v. *)
From Verif Require Import Base Ord OrdProof Codec LeafSpec Entries Bulk BulkSpec BulkProof BTree EntryTree IndexSpec IndexExamples
  ScanEntry Scan TidBitmap IndexScan LeafCodec VacTreeSpec VacIndex VacScanSpec LifeSpec QuerySpec LifeQuery IndexScanProof QueryExamples LifeExamples LifeQueryExamples.
From Coq Require Import NArith ZArith List Permutation Sorted Bool.
Import ListNotations.
Local Open Scope Z_scope.

(** C46.  After CREATE INDEX and any INSERTs and VACUUMs, a query with any conditions ends (it meets no broken page)
    and returns, once each, exactly the addresses of the table's rows that satisfy all conditions,
    where the match function of a condition is told for each of its query keys whether the row
    contains a key it asks for and the additional information found there (joined when several are
    found: [shows]); a row is marked for recheck iff a condition asked for that.  Covers exact
    keys, NULL keys, partial match, whole-column and empty-item modes, conditions on the attached
    column, posting lists and trees, the regular and the fast scan; what it does not cover is in
    [covered], and in [junk_harmless]: after a VACUUM a scan may start on an empty page and then takes
    its first row from uninitialised memory (C41). *)
Theorem C46_query_returns_the_rows_partial : forall (K : Type) (compareFn : N -> K -> K -> Z) altOf attrOf cmpA rawSize (dflt : K) useAlt addTo built history ix,
  table_index compareFn altOf attrOf cmpA rawSize dflt useAlt addTo built history ix ->
  let table := rows_now built history in
  forall attach curKeyOrdering tuplesort junk joinFn canPre estimate sortEnts visit iterate tbmMax,
  sorter tuplesort -> junk_harmless compareFn history ix junk -> (forall f a, joinFn addTo = Some f -> f a a = a) -> sorts_entries useAlt addTo cmpA sortEnts ->
  forall conds orders, covered compareFn dflt addTo attach useAlt curKeyOrdering canPre (ever built history) table conds orders ->
  exists V out,
    queryScan dflt addTo attach curKeyOrdering compareFn useAlt cmpA tuplesort junk joinFn canPre estimate sortEnts visit iterate tbmMax ix conds orders = Some out /\
    (existsb noKey conds = false -> forall r q, In r table -> In q (query_keys dflt addTo attach curKeyOrdering conds orders) ->
       shows (joinFn (rq_att q)) (infos compareFn addTo r q) (V r q)) /\
    NoDup (map fst out) /\
    (forall p, In p (map fst out) <-> exists r, In r table /\ r_tid r = p /\ forall c, In c conds -> satisfies dflt addTo attach (V r) conds r c) /\
    (forall r re, In r table -> In (r_tid r, re) out ->
       (re = true <-> exists c, In c conds /\ wants_recheck addTo attach (V r) conds c)).
Proof. exact query_table. Qed.
Print Assumptions C46_query_returns_the_rows_partial.

(** A table of six rows in an order_by_attach index: two keys and a condition on the attached value, a
    partial match, a whole column. *)
Example C46_hypotheses_met : table_index zf alt1 val8 dcmp ksz 0%Z true 1 tbuilt (map EIns tadded) tix /\
  sorts_entries true 1 dcmp (sortDown true 1 dcmp) /\
  tcovered [c_any; c_ge] [] /\ tcovered [c_from] [] /\ tcovered [c_all] [] /\
  tquery [c_any; c_ge] = Some [(3, false); (12, false); (5, false); (4, false)]%N /\
  tquery [c_from] = Some [(1, false); (9, false); (3, false); (12, false); (5, false); (4, false)]%N /\
  tquery [c_all] = Some [(1, true); (3, true); (4, true); (5, true); (9, true); (12, true)]%N.
Proof.
  split; [exact tix_index|]. split; [intro ents; apply sortDown_ok; exact dcmp_total|]. split; [exact covered_1|]. split; [exact covered_2|]. split; [exact covered_3|]. exact tquery_values.
Qed.

(** The same for an index that was vacuumed: the scan of key 3 starts on an empty page, key 5 has no rows left. *)
Example C46_hypotheses_met_vacuumed : table_index zf off0 bigA PropTreeProof.zcmp ksz 0%Z false 0 lbuilt vhist vix /\
  has_vacuum vhist /\ junk_harmless zf vhist vix (fun _ => vjunk) /\ map first_leaf (i_trees vix) = [Some []; Some [4; 10]%N] /\
  sorts_entries false 0 PropTreeProof.zcmp (sortDown false 0 PropTreeProof.zcmp) /\
  vcovered [v_three; v_five] [] /\ vcovered [c_from] [] /\
  map (fun r => blk (r_tid r)) (rows_now lbuilt vhist) = [4; 5; 6; 7; 9; 10]%N /\
  vquery [v_three; v_five] = Some [(4, false); (10, false)]%N /\
  vquery [c_from] = Some [(4, false); (5, false); (6, false); (7, false); (9, false); (10, false)]%N.
Proof.
  destruct vquery_values as (E1 & _ & E2 & E3).
  split; [exact vix_index|]. split; [eexists; do 6 right; left; reflexivity|]. split; [exact vjunk_harmless|]. split; [exact vix_empty_leaf|]. split; [intro ents; apply sortDown_ok; exact (proj1 (proj2 ex_columns))|].
  split; [exact vcovered_1|]. split; [exact vcovered_2|]. split; [exact E1|]. split; [exact E2|exact E3].
Qed.

(** C37.  A condition with a NULL argument, or with no keys in the default search mode, makes the query
    return nothing, whatever the index and the other conditions. *)
Theorem C37_null_or_empty_query : forall (K : Type) (compareFn : N -> K -> K -> Z) cmpA (dflt : K) useAlt addTo attach curKeyOrdering
  tuplesort junk joinFn canPre estimate sortEnts visit iterate tbmMax ix conds orders c,
  In c conds -> cl_isnull c = true \/ (cl_vals c = [] /\ cl_mode c = 0) ->
  queryScan dflt addTo attach curKeyOrdering compareFn useAlt cmpA tuplesort junk joinFn canPre estimate sortEnts visit iterate tbmMax ix conds orders = Some [].
Proof. exact query_null. Qed.
Print Assumptions C37_null_or_empty_query.

(** C37.  In no mode is a row returned that has none of the keys a condition asks for; a query without keys
    returns in mode INCLUDE_EMPTY (1) the rows with an empty value in the column, in any other
    non-default mode the rows with a non-NULL value in the column, as far as the match function accepts. *)
Theorem C37_search_modes : forall (K : Type) (compareFn : N -> K -> K -> Z) altOf attrOf cmpA rawSize (dflt : K) useAlt addTo built history ix,
  table_index compareFn altOf attrOf cmpA rawSize dflt useAlt addTo built history ix ->
  let table := rows_now built history in
  forall attach curKeyOrdering tuplesort junk joinFn canPre estimate sortEnts visit iterate tbmMax,
  sorter tuplesort -> junk_harmless compareFn history ix junk -> (forall f a, joinFn addTo = Some f -> f a a = a) -> sorts_entries useAlt addTo cmpA sortEnts ->
  forall conds orders, covered compareFn dflt addTo attach useAlt curKeyOrdering canPre (ever built history) table conds orders ->
  exists out, queryScan dflt addTo attach curKeyOrdering compareFn useAlt cmpA tuplesort junk joinFn canPre estimate sortEnts visit iterate tbmMax ix conds orders = Some out /\
  (forall c r, In c (kept addTo attach conds) -> In r table -> In (r_tid r) (map fst out) ->
     cl_isnull c = false /\ exists q e, In q (requests dflt c) /\ In e (row_pairs addTo r) /\ asks compareFn q (fst e) = true) /\
  (forall c r, conds = [c] -> In r table -> cl_isnull c = false -> cl_vals c = [] -> cl_mode c <> 0 ->
     (In (r_tid r) (map fst out) <-> fst (cl_cons c []) = true /\
        exists e, In e (row_pairs addTo r) /\ k_att (fst e) = cl_att c /\
          (if cl_mode c =? 1 then k_cat (fst e) = CatEmptyItem else k_cat (fst e) <> CatNullItem))).
Proof. exact query_modes. Qed.
Print Assumptions C37_search_modes.

(** C38, where it holds: on rows with attached values the two orders are the same. *)
Theorem C38_same_order_partial : forall alt (cmpA : datum -> datum -> Z) a b,
  (alt = true -> add a <> None /\ add b <> None) -> comparetup_rumitem cmpA alt a b = compareRumItem alt cmpA a b.
Proof. exact comparetup_same. Qed.
Print Assumptions C38_same_order_partial.
Example C38_hypotheses_met : comparetup_rumitem dcmp true (mkItem (mkIp 9 1) (Some (DVal 3))) (mkItem (mkIp 2 1) (Some (DVal 4))) = -1.
Proof. reflexivity. Qed.

(** C38 is false: in an order_by_attach index rows with NULL attached value come first on pages
    ([compareRumItem]) and last where the rows of several keys are sorted in memory
    ([comparetup_rumitem]); a partial-match query then loses such a row: the table has two rows, both satisfy
    the condition, one is returned. *)
Theorem C38_null_order_refuted :
  (forall (cmpA : datum -> datum -> Z) p p' v, compareRumItem true cmpA (mkItem p None) (mkItem p' (Some v)) < 0 /\
     0 < comparetup_rumitem cmpA true (mkItem p None) (mkItem p' (Some v))) /\
  table_index zf alt1 val8 dcmp ksz 0%Z true 1 [] (map EIns nadded) nix /\ sorts_entries true 1 dcmp (sortDown true 1 dcmp) /\
  nquery [c_from] = Some [(mkIp 5 1, false)] /\
  forall V, (forall r q, In r nadded -> In q (query_keys 0%Z 1 2 (fun _ => false) [c_from] []) -> shows None (infos zf 1 r q) (V r q)) ->
    exists r, In r nadded /\ r_tid r = mkIp 3 1 /\ forall c, In c [c_from] -> satisfies 0%Z 1 2 (V r) [c_from] r c.
Proof.
  split; [intros; split; reflexivity|]. split; [exact nix_index|]. split; [intro ents; apply sortDown_ok; exact dcmp_total|]. exact null_row_lost.
Qed.
Print Assumptions C38_null_order_refuted.
