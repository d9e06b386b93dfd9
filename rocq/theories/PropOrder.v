(** C27: ORDER BY distance.  Vocabulary: OrderSpec.v, QuerySpec.v; model: OrderScan.v, IndexScan.v, Scan.v. *)
From Verif Require Import Base Ord OrdProof Codec LeafSpec Entries Bulk BulkSpec BulkProof BTree EntryTree IndexSpec IndexExamples
  ScanEntry Scan TidBitmap IndexScan LeafCodec VacTreeSpec VacIndex VacScanSpec LifeSpec QuerySpec LifeQuery IndexScanProof QueryExamples OrderScan OrderSpec OrderScanProof OrderAlt OrderExamples.
From Coq Require Import NArith ZArith List Permutation Sorted Bool.
Import ListNotations.
Local Open Scope Z_scope.

(** C27.  After CREATE INDEX and any INSERTs and VACUUMs, a query with conditions and ORDER BY distances returns, once each,
    exactly the rows that satisfy the conditions; the rows come in the order of their distance vectors; and
    each component of a row's vector is the row's true distance to the ordering's argument - by the attached
    value, by the row's key, or by what the operator class says about the ordering's query keys - infinity
    for NULL.  (Distances by query keys are exact for rows not marked for recheck.)  What it does not cover is
    in [covered] and [orders_covered]. *)
Theorem C27_order_by_distance_partial : forall (K D : Type) (compareFn : N -> K -> K -> Z) altOf attrOf cmpA rawSize (dflt : K) useAlt addTo built history ix,
  table_index compareFn altOf attrOf cmpA rawSize dflt useAlt addTo built history ix ->
  let table := rows_now built history in
  forall attach curKeyOrdering tuplesort junk joinFn canPre estimate sortEnts visit iterate tbmMax (dcmp : D -> D -> Z) dinf sortItems,
  sorter tuplesort -> junk_harmless compareFn history ix junk -> (forall f a, joinFn addTo = Some f -> f a a = a) -> sorts_entries useAlt addTo cmpA sortEnts ->
  total_cmp dcmp -> sorts_items sortItems ->
  forall conds (orders : list (ordering K D)), covered compareFn dflt addTo attach useAlt curKeyOrdering canPre (ever built history) table conds (map od_clause orders) ->
  orders_covered compareFn dflt addTo attach curKeyOrdering table conds orders ->
  exists V out,
    orderedScan dcmp dinf dflt addTo attach curKeyOrdering compareFn useAlt cmpA tuplesort junk joinFn canPre estimate sortEnts visit iterate tbmMax sortItems ix conds orders = Some out /\
    (existsb noKey conds = false -> forall r q, In r table -> In q (query_keys dflt addTo attach curKeyOrdering conds (map od_clause orders)) ->
       shows (joinFn (rq_att q)) (infos compareFn addTo r q) (V r q)) /\
    NoDup (map (fun s => fst (fst s)) out) /\
    (forall p, In p (map (fun s => fst (fst s)) out) <-> exists r, In r table /\ r_tid r = p /\ forall c, In c conds -> satisfies dflt addTo attach (V r) conds r c) /\
    StronglySorted (fun a b => lex_le dcmp (snd a) (snd b)) out /\
    (forall r re ds, In r table -> In (r_tid r, re, ds) out ->
       (re = true <-> exists c, In c conds /\ wants_recheck addTo attach (V r) conds c) /\
       Forall2 (fun o d => (keyed attach curKeyOrdering o = true -> re = false) -> distance_of dinf addTo attach curKeyOrdering (V r) r o d) (lives orders) ds).
Proof. exact order_table. Qed.
Print Assumptions C27_order_by_distance_partial.

(** Five rows; ordering by the attached value and then by missing keys; by the key of a column; with a NULL. *)
Example C27_hypotheses_met :
  table_index zf (alt2 1) val8 dcmp ksz 0%Z false 1 [] (map EIns otable) oix /\ table_index zf (alt2 1) val8 dcmp ksz 0%Z false 1 [] (map EIns otable2) oix2 /\
  sorts_entries false 1 dcmp (sortDown false 1 dcmp) /\ total_cmp ocmp /\ sorts_items (@isort (@sitem (option Z))) /\
  ocovered 1 2 cur3 otable [c_any] (map od_clause [o_att; o_miss]) /\ orders_covered zf 0%Z 1 2 cur3 otable [c_any] [o_att; o_miss] /\
  ocovered 1 2 cur3 otable [c_fromAt 3 3] (map od_clause [o_key 3 6]) /\ orders_covered zf 0%Z 1 2 cur3 otable [c_fromAt 3 3] [o_key 3 6] /\
  ocovered 1 2 cur3 otable2 [c_any] (map od_clause [o_att]) /\ orders_covered zf 0%Z 1 2 cur3 otable2 [c_any] [o_att] /\
  oquery 1 2 cur3 oix [c_any] [o_att; o_miss] = Some [(mkIp 5 1, false, [Some 1; Some 1]); (mkIp 2 1, false, [Some 2; Some 1]); (mkIp 3 1, false, [Some 4; Some 0]); (mkIp 1 1, false, [Some 7; Some 0])] /\
  oquery 1 2 cur3 oix [c_fromAt 3 3] [o_key 3 6] = Some [(mkIp 4 1, false, [Some 1]); (mkIp 5 1, false, [Some 1]); (mkIp 3 1, false, [Some 2]); (mkIp 1 1, false, [Some 3])] /\
  oquery 1 2 cur3 oix2 [c_any] [o_att] = Some [(mkIp 1 1, false, [Some 7]); (mkIp 2 1, false, [None])].
Proof.
  split; [exact oix_index|]. split; [exact oix2_index|]. split; [intro ents; apply sortDown_ok; exact dcmp_total|]. split; [exact ocmp_total|]. split; [exact isort_items|].
  split; [exact o_covered_1|]. split; [exact oc_1|]. split; [exact o_covered_2|]. split; [exact oc_2|]. split; [exact o_covered_3|]. split; [exact oc_3|]. exact oquery_values.
Qed.

(** Outside [orders_covered] C27 is false.  (1) A row whose attached value is NULL, ordered by query keys on the
    column it is attached to and then by the attached value: its second distance is that of Datum 0, not infinity. *)
Theorem C27_null_beside_query_keys_refuted :
  table_index zf (alt2 1) val8 dcmp ksz 0%Z false 1 [] (map EIns otable2) oix2 /\ ocovered 1 2 cur3 otable2 [c_any] (map od_clause [o_miss; o_att]) /\
  exists r ds1 d out, In r otable2 /\ oquery 1 2 cur3 oix2 [c_any] [o_miss; o_att] = Some out /\ In (r_tid r, false, [ds1; d]) out /\
    forall V, ~ distance_of None 1 2 cur3 V r o_att d.
Proof.
  split; [exact oix2_index|]. split; [exact o_covered_4|]. exists (orow 2 [1] None 2), (Some 1), (Some 10). eexists. split; [right; left; reflexivity|].
  split; [exact (proj1 oquery_wrong)|]. split; [right; left; reflexivity|]. intros V H. discriminate H.
Qed.
Print Assumptions C27_null_beside_query_keys_refuted.
(** (2) Two orderings by keys of different columns: the second one's distance is measured from the first
    one's column. *)
Theorem C27_two_key_columns_refuted :
  table_index zf (alt2 0) val8 dcmp ksz 0%Z false 0 [] (map EIns otable) oix3 /\ ocovered 0 0 cur23 otable [c_fromAt 2 0; c_fromAt 3 0] (map od_clause [o_key 2 10; o_key 3 5]) /\
  exists r ds1 d out, In r otable /\ oquery 0 0 cur23 oix3 [c_fromAt 2 0; c_fromAt 3 0] [o_key 2 10; o_key 3 5] = Some out /\ In (r_tid r, false, [ds1; d]) out /\
    forall V, ~ distance_of None 0 0 cur23 V r (o_key 3 5) d.
Proof.
  split; [exact oix3_index|]. split; [exact o_covered_5|]. exists (orow 4 [2] (Some 10%N) 7), (Some 0), (Some 5). eexists. split; [right; right; right; left; reflexivity|].
  split; [exact (proj1 (proj2 oquery_wrong))|]. split; [left; reflexivity|]. intros V (e & He & Ea & Ed). cbn in He. repeat (destruct He as [<-|He]; [discriminate Ea || discriminate Ed|]). destruct He.
Qed.
Print Assumptions C27_two_key_columns_refuted.
(** (3) An ordering by the attached value before one by the key of the column it is attached to: the key is
    never looked at. *)
Theorem C27_attached_and_own_key_refuted :
  table_index zf (alt2 1) val8 dcmp ksz 0%Z false 1 [] (map EIns otable) oix /\ ocovered 1 2 cur1 otable [c_fromAt 1 2] (map od_clause [o_att; o_key 1 4]) /\
  exists r ds1 d out, In r otable /\ oquery 1 2 cur1 oix [c_fromAt 1 2] [o_att; o_key 1 4] = Some out /\ In (r_tid r, false, [ds1; d]) out /\
    forall V, ~ distance_of None 1 2 cur1 V r (o_key 1 4) d.
Proof.
  split; [exact oix_index|]. split; [exact o_covered_6|]. exists (orow 4 [2] (Some 10%N) 7), (Some 0), (Some 4). eexists. split; [right; right; right; left; reflexivity|].
  split; [exact (proj2 (proj2 oquery_wrong))|]. split; [left; reflexivity|]. intros V (e & He & Ea & Ed). cbn in He. repeat (destruct He as [<-|He]; [discriminate Ea || discriminate Ed|]). destruct He.
Qed.
Print Assumptions C27_attached_and_own_key_refuted.

(** (4) An index ordered by the attached column (order_by_attach), conditions on the column it is attached to, one of
    them a prefix search or without a pre-filter (so the regular scan is taken), and an ordering by the attached
    column that is not a one-sided distance: no row is ever returned, whatever the index holds. *)
Theorem C27_order_by_attach_regular_scan_returns_nothing : forall (K D : Type) (dcmp : D -> D -> Z) dinf (dflt : K) addTo attach curKeyOrdering compareFn cmpA
  tuplesort junk joinFn canPre estimate sortEnts visit iterate tbmMax sortItems ix conds (orders : list (ordering K D)) c0 o,
  sortItems (fun a b => comparetup_rum dcmp (snd a) (snd b)) [] = [] ->
  In c0 conds -> (forall c, In c conds -> cl_att c = addTo) -> attach <> addTo ->
  In o (lives orders) -> cl_att (od_clause o) = attach ->
  (canPre addTo = false \/ exists c q, In c conds /\ In q (requests dflt c) /\ rq_partial q <> None) ->
  let out := orderedScan dcmp dinf dflt addTo attach curKeyOrdering compareFn true cmpA tuplesort junk joinFn canPre estimate sortEnts visit iterate tbmMax sortItems ix conds orders in
  out = Some [] \/ out = None.
Proof. intros. eapply alt_order_empty; eassumption. Qed.
Print Assumptions C27_order_by_attach_regular_scan_returns_nothing.
(** So C27 is false there: six rows match the prefix search, and without the ordering they are returned; the column
    has a pre-filter, as that of rum_tsvector_addon_ops. *)
Definition tordered (conds : list (clause Z)) (orders : list oord) :=
  orderedScan ocmp None 0%Z 1 2 (fun _ => false) zf true dcmp isort (fun _ => item_min) (fun _ => None) (fun _ => true) (fun _ _ => 0%N) (sortDown true 1 dcmp) (fun _ => []) (fun l => l) 1000 isort tix conds orders.
Theorem C27_order_by_attach_prefix_refuted : table_index zf alt1 val8 dcmp ksz 0%Z true 1 tbuilt (map EIns tadded) tix /\
  tordered [c_from] [] = Some (map (fun b => (mkIp b 1, false, [])) [1; 9; 3; 12; 5; 4]%N) /\ tordered [c_from] [o_att] = Some [].
Proof. split; [exact tix_index|]. vm_compute. auto. Qed.
Print Assumptions C27_order_by_attach_prefix_refuted.
