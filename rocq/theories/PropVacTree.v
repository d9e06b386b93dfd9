(** C15, C47: vacuum of the posting tree of one key.
    Vocabulary: VacTreeSpec.v, PostingTreeSpec.v; model: VacuumTree.v, BTree.v, PostingTree.v. *)
From Verif Require Import Base Ord Codec CodecSpec LeafSpec LeafCodec BTree PostingTree PostingTreeSpec
  PropTreeProof VacuumTree VacTreeSpec PropVacTreeProof VacTreeExamples.
From Coq Require Import NArith ZArith List.
Import ListNotations.

(** C15.  Vacuum with any dead set succeeds on every tree reached by a build, insertions and vacuums; afterwards scan
    and descent give exactly the live rows, in order.  After each of its logged changes a scan gives all live rows and
    only old rows, in order; so does descent, unless an internal page was left without children. *)
Theorem C15_vacuum_keeps_live_rows : forall alt a cmpA,
  config_ok alt a -> total_cmp cmpA -> safe_align a ->
  forall st must may, vreaches alt a cmpA st must may ->
  forall rows, ptScan st = Some rows -> forall dead,
  exists tr, ptVacuum dead st = Some tr /\
    tree_is alt a cmpA (last tr st) (filter (alive dead) rows) /\
    forall s, In s tr -> exists rows', ptScan s = Some rows' /\ ssorted (compareRumItem alt cmpA) rows' /\
      incl rows' rows /\ filter (alive dead) rows' = filter (alive dead) rows /\
      (no_empty_internal s -> tree_is alt a cmpA s rows').
Proof. exact vacuum_rows. Qed.
Print Assumptions C15_vacuum_keeps_live_rows.

(** Whole histories: the tree holds every row inserted and not reported dead since, and nothing else (what a vacuum cut
    by a crash was to remove may still be there); scan and descent agree. *)
Theorem C15_vacuum_histories : forall alt a cmpA,
  config_ok alt a -> total_cmp cmpA -> safe_align a ->
  forall st must may, vreaches alt a cmpA st must may ->
  exists rows, tree_is alt a cmpA st rows /\
    (forall x, In x must -> exists y, In y rows /\ compareRumItem alt cmpA y x = 0%Z) /\
    (forall x, In x rows -> In x may).
Proof. exact vreaches_tree. Qed.
Print Assumptions C15_vacuum_histories.

(** Insertions go on working on vacuumed trees. *)
Theorem C15_insertion_after_vacuum : forall alt a cmpA,
  config_ok alt a -> total_cmp cmpA -> safe_align a ->
  forall st must may, vreaches alt a cmpA st must may ->
  forall build x, storable alt a x -> exists tr, ptInsert alt a cmpA build st [x] = Some (tr, false).
Proof. exact vreaches_insert. Qed.
Print Assumptions C15_insertion_after_vacuum.

(** The leaf chain only shrinks; its first and last pages stay first and last; a page that vacuum emptied leaves the
    chain unless it is the first or the last. *)
Theorem C15_vacuum_pages : forall alt a cmpA,
  config_ok alt a -> total_cmp cmpA -> safe_align a ->
  forall st must may, vreaches alt a cmpA st must may ->
  forall dead tr, ptVacuum dead st = Some tr ->
  let st' := last tr st in
  (forall b, on_chain st' b -> on_chain st b) /\
  (forall b pg, on_chain st b -> nth_error st b = Some pg -> p_left pg = None \/ p_right pg = None ->
    on_chain st' b /\ exists pg', nth_error st' b = Some pg' /\ (p_left pg = None -> p_left pg' = None) /\ (p_right pg = None -> p_right pg' = None)) /\
  (forall b pg pg', on_chain st' b -> nth_error st b = Some pg -> nth_error st' b = Some pg' -> p_items pg' = [] ->
    p_items pg = [] \/ p_left pg' = None \/ p_right pg' = None).
Proof. exact vacuum_pages. Qed.
Print Assumptions C15_vacuum_pages.

(** A tree of five leaves, vacuumed so that two leaves go and the first is emptied, then inserted into and vacuumed again. *)
Example C15_hypotheses_met : config_ok false big_attr /\ total_cmp zcmp /\ safe_align big_attr /\
  vreaches false big_attr zcmp vac_twice [bigrow 40; bigrow 140; bigrow 55; bigrow 75] [bigrow 40; bigrow 140; bigrow 55; bigrow 75] /\
  option_map (map (fun r => blk (ip r))) (ptScan vac_twice) = Some [40; 55; 75; 140]%N /\
  map (@p_deleted _) vac_twice = [false; false; false; true; true; false].
Proof. exact vac_twice_ok. Qed.

(** C47, partial.  A vacuum cut by a crash after any logged change: if no internal page was left without children, all rows
    it was not to remove are there, and the next vacuum completes the work.  Missing: the other crashes (false, below). *)
Theorem C47_vacuum_after_crashed_vacuum_partial : forall alt a cmpA,
  config_ok alt a -> total_cmp cmpA -> safe_align a ->
  forall st must may, vreaches alt a cmpA st must may ->
  forall dead tr s, ptVacuum dead st = Some tr -> In s tr -> no_empty_internal s ->
  exists rows, tree_is alt a cmpA s rows /\
    (forall x, In x must -> dead (ip x) = false -> exists y, In y rows /\ compareRumItem alt cmpA y x = 0%Z) /\
    (forall x, In x rows -> In x may) /\
    forall dead2, exists tr2, ptVacuum dead2 s = Some tr2 /\ tree_is alt a cmpA (last tr2 s) (filter (alive dead2) rows).
Proof. exact vacuum_after_cut. Qed.
Print Assumptions C47_vacuum_after_crashed_vacuum_partial.

(** The condition on internal pages is needed: vacuum logs the deletion of the last child and that of the internal page
    separately, so a crash between them leaves a childless internal page; descent and insertion then read past it. *)
Theorem C47_crash_leaves_childless_page_refuted : exists st must may dead tr s x,
  vreaches false big_attr zcmp st must may /\ ptVacuum dead st = Some tr /\ In s tr /\ storable false big_attr x /\
  ptLookup false zcmp s x = None /\ ptInsert false big_attr zcmp false s [x] = None.
Proof. exact childless_page. Qed.
Print Assumptions C47_crash_leaves_childless_page_refuted.

(** The restriction to insertions that complete is needed: a crash in the middle of a split leaves the right half without
    a downlink, and vacuum never visits it: rows reported dead stay. *)
Theorem C47_dead_rows_stay_after_crash_refuted : exists st acked tried dead tr rows x,
  reaches false big_attr zcmp st acked tried /\ ptVacuum dead st = Some tr /\ ptScan (last tr st) = Some rows /\
  In x rows /\ dead (ip x) = true.
Proof. exact dead_rows_stay. Qed.
Print Assumptions C47_dead_rows_stay_after_crash_refuted.

(** ... and when vacuum deletes the left half, acknowledged live rows of the right half are no longer found by descent. *)
Theorem C47_live_row_hidden_after_crash_refuted : exists st acked tried dead tr rows x,
  reaches false big_attr zcmp st acked tried /\ In x acked /\ dead (ip x) = false /\ ptVacuum dead st = Some tr /\
  ptScan (last tr st) = Some rows /\ In x rows /\ ptLookup false zcmp (last tr st) x = Some false.
Proof. exact live_row_hidden. Qed.
Print Assumptions C47_live_row_hidden_after_crash_refuted.
