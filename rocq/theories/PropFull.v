(** C55: ORDER BY distance without conditions (the full-index scan).  Model: FullScan.v; vocabulary: FullSpec.v, OrderSpec.v. *)
From Verif Require Import Base Ord OrdProof Codec LeafSpec Entries Bulk BulkSpec BulkProof BTree EntryTree IndexSpec IndexExamples
  ScanEntry Scan TidBitmap IndexScan LeafCodec VacTreeSpec VacIndex VacScanSpec LifeSpec QuerySpec PropTreeProof LifeQuery LifeQueryExamples QueryExamples OrderScan OrderSpec OrderScanProof ScalarExamples OrderExamples FullScan FullSpec FullProof FullExamples.
From Coq Require Import NArith ZArith List Permutation Sorted Bool.
Import ListNotations.
Local Open Scope Z_scope.

(** C55.  After any history of INSERTs, deletions with VACUUM - as long as a VACUUM leaves a row to every key of column 1
    and the first leaf of its posting trees is not empty - a query with ORDER BY distances and no conditions returns
    every row of the table exactly once, in the order of the distance vectors; each distance is the row's true one - by
    the value attached to column 1, or by its key in column 1 - infinity for NULL; no row is to be checked again. *)
Theorem C55_full_scan_partial : forall (K D : Type) (compareFn : N -> K -> K -> Z) altOf attrOf cmpA rawSize (dflt : K) useAlt addTo built history ix,
  table_index compareFn altOf attrOf cmpA rawSize dflt useAlt addTo built history ix ->
  let table := rows_now built history in
  forall junk attach curKeyOrdering (dcmp : D -> D -> Z) dinf sortItems, total_cmp dcmp -> sorts_items sortItems ->
  (has_vacuum history -> column1_alive compareFn addTo (ever built history) table ix) -> (forall r, In r table -> has_column1 addTo r) ->
  forall orders : list (ordering K D), full_covered compareFn addTo attach curKeyOrdering table orders ->
  exists out, fullScan dcmp dinf dflt addTo attach curKeyOrdering compareFn junk sortItems ix orders = Some out /\
    NoDup (map (fun s => fst (fst s)) out) /\ (forall p, In p (map (fun s => fst (fst s)) out) <-> In p (map r_tid table)) /\
    StronglySorted (fun a b => lex_le dcmp (snd a) (snd b)) out /\
    forall r re ds, In r table -> In (r_tid r, re, ds) out -> re = false /\ forall V, Forall2 (distance_of dinf addTo attach curKeyOrdering V r) (lives orders) ds.
Proof. exact full_table. Qed.
Print Assumptions C55_full_scan_partial.

(** Five rows, of which three have two keys, by the attached value; four rows, one with NULL; by the key; the same after
    a VACUUM of row 2, whose key is also row 3's. *)
Example C55_hypotheses_met :
  table_index zf (alt2 1) val8 dcmp ksz 0%Z false 1 [] (map EIns otable) oix /\ table_index zf (alt2 1) val8 dcmp ksz 0%Z false 1 [] (map EIns ftable) (fix_state 1 []) /\
  table_index zf (alt2 1) val8 dcmp ksz 0%Z false 1 [] (fhist [2%N]) (fix_state 1 [2%N]) /\
  column1_alive zf 1 (ever [] (fhist [2%N])) (rows_now [] (fhist [2%N])) (fix_state 1 [2%N]) /\ (forall r, In r (rows_now [] (fhist [2%N])) -> has_column1 1 r) /\
  total_cmp ocmp /\ sorts_items (@isort (@sitem (option Z))) /\ (forall t, In t [otable; ftable] -> forall r, In r t -> has_column1 1 r) /\
  full_covered zf 1 2 nocur otable [o_att] /\ full_covered zf 1 2 nocur ftable [o_att] /\ full_covered zf 1 2 cur1 ftable [o_key 1 3] /\
  full_covered zf 1 2 nocur (rows_now [] (fhist [2%N])) [o_att] /\
  fquery 1 2 nocur oix [o_att] = Some [(mkIp 4 1, false, [Some 0]); (mkIp 5 1, false, [Some 1]); (mkIp 2 1, false, [Some 2]); (mkIp 3 1, false, [Some 4]); (mkIp 1 1, false, [Some 7])] /\
  fquery 1 2 nocur (fix_state 1 []) [o_att] = Some [(mkIp 4 1, false, [Some 0]); (mkIp 2 1, false, [Some 2]); (mkIp 1 1, false, [Some 7]); (mkIp 3 1, false, [None])] /\
  fquery 1 2 cur1 (fix_state 1 []) [o_key 1 3] = Some [(mkIp 2 1, false, [Some 1]); (mkIp 3 1, false, [Some 1]); (mkIp 4 1, false, [Some 1]); (mkIp 1 1, false, [Some 2])] /\
  fquery 1 2 nocur (fix_state 1 [2%N]) [o_att] = Some [(mkIp 4 1, false, [Some 0]); (mkIp 1 1, false, [Some 7]); (mkIp 3 1, false, [None])].
Proof.
  split; [exact oix_index|]. split; [exact (f_index 1 [] (or_introl eq_refl) (or_introl eq_refl))|]. split; [apply f_index; cbn; auto|]. split; [exact f_alive|].
  split; [intros r Hr; apply (f_columns ftable); [cbn; auto|]; cbn in Hr |- *; intuition|]. split; [exact ocmp_total|]. split; [exact isort_items|].
  split; [intros t Ht; exact (f_columns t Ht 1%N)|]. split; [apply fc_1|]. split; [apply fc_1|]. split; [exact fc_2|]. split; [apply fc_1|]. vm_compute. auto 6.
Qed.

(** Without the condition on VACUUMs C55 is false.  (1) The only row with the smallest key is deleted and vacuumed away: the query, which
    should return three rows, returns none. *)
Theorem C55_first_key_vacuumed_refuted :
  table_index zf (alt2 1) val8 dcmp ksz 0%Z false 1 [] (fhist [1%N]) (fix_state 1 [1%N]) /\ length (rows_now [] (fhist [1%N])) = 3%nat /\
  full_covered zf 1 2 nocur (rows_now [] (fhist [1%N])) [o_att] /\ fquery 1 2 nocur (fix_state 1 [1%N]) [o_att] = Some [].
Proof. split; [apply f_index; cbn; auto|]. split; [reflexivity|]. split; [apply fc_1|]. vm_compute. reflexivity. Qed.
Print Assumptions C55_first_key_vacuumed_refuted.
(** (2) The only row with some later key is: the scan follows a null pointer. *)
Theorem C55_later_key_vacuumed_refuted :
  table_index zf (alt2 1) val8 dcmp ksz 0%Z false 1 [] (fhist [4%N]) (fix_state 1 [4%N]) /\ length (rows_now [] (fhist [4%N])) = 3%nat /\
  full_covered zf 1 2 nocur (rows_now [] (fhist [4%N])) [o_att] /\ fullFound 0%Z zf (fun _ => vjunk) (fix_state 1 [4%N]) = None.
Proof. split; [apply f_index; cbn; auto|]. split; [reflexivity|]. split; [apply fc_1|]. vm_compute. reflexivity. Qed.
Print Assumptions C55_later_key_vacuumed_refuted.
(** (3) The value is attached to column 3, not to the first: all distances come out infinite. *)
Theorem C55_attached_elsewhere_refuted :
  table_index zf (alt2 3) val8 dcmp ksz 0%Z false 3 [] (map EIns ftable) (fix_state 3 []) /\
  fquery 3 2 nocur (fix_state 3 []) [o_att] = Some (map (fun r => (r_tid r, false, [None])) ftable) /\
  exists r, In r ftable /\ forall V, ~ distance_of None 3 2 nocur V r o_att None.
Proof.
  split; [exact (f_index 3 [] (or_intror (or_introl eq_refl)) (or_introl eq_refl))|]. split; [vm_compute; reflexivity|].
  exists (orow 1 [1] (Some 3%N) 9). split; [left; reflexivity|]. intros V H. discriminate H.
Qed.
Print Assumptions C55_attached_elsewhere_refuted.
(** (4) Every key still has rows, but the first leaf of its posting tree is empty: the query returns, beside the four
    rows of the table, the address that the memory for the first leaf's items happened to contain. *)
Theorem C55_empty_first_leaf_refuted :
  table_index zf off0 bigA zcmp ksz 0%Z false 0 [] dhist dix /\ full_covered zf 0 2 cur1 (rows_now [] dhist) [o_key 1 3] /\
  (forall r, In r (rows_now [] dhist) -> has_column1 0 r) /\
  (forall e, In e (flat_map (row_pairs 0) (ever [] dhist)) -> exists e', In e' (flat_map (row_pairs 0) (rows_now [] dhist)) /\ rumCompareAttEntries zf (fst e') (fst e) = 0) /\
  map r_tid (rows_now [] dhist) = map (fun b => mkIp b 1) [4; 5; 6; 7]%N /\
  fquery 0 2 cur1 dix [o_key 1 3] = Some (map (fun b => (mkIp b 1, false, [Some 0])) [4; 5; 6; 7; 77]%N).
Proof.
  split; [exact dix_index|]. split; [exact fc_3|]. split.
  { intros r Hr. cbn in Hr. repeat (destruct Hr as [<-|Hr]; [eexists; split; [left; reflexivity|reflexivity]|]). destruct Hr. }
  split.
  { intros e He. eexists. split; [left; reflexivity|]. cbn in He. repeat (destruct He as [<-|He]; [reflexivity|]). destruct He. }
  split; [reflexivity|]. vm_compute. reflexivity.
Qed.
Print Assumptions C55_empty_first_leaf_refuted.
