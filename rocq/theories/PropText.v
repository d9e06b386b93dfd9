(** C49: full-text search through the index. *)
From Coq Require Import NArith ZArith Lia List Permutation Sorted Bool Arith.
From Verif Require Import VacTreeSpec VacIndex VacScanSpec LifeSpec LifeProof LifeQuery.
From Verif Require Import Base Ord OrdProof Codec CodecSpec CodecProof LeafSpec LeafCodecProof PosCodec Entries EntriesSpec EntriesProof Bulk BulkSpec BulkProof BTree PostingTree PostingTreeSpec
  PropCodecProof PropTreeProof EntryTree IndexSpec IndexExamples ScanEntry Scan ScanSpec TidBitmap IndexScan LeafCodec QuerySpec QueryExamples OrderExamples InvertedExamples
  Tsq TsqSpec TsqExtract PropTsqProof PropTsq TextSearch TextSpec TextQuery TextExamples.
Import ListNotations.
Local Open Scope Z_scope.

(** The tsvector classes that keep positions (rum_tsvector_ops, rum_tsvector_hash_ops), any index left by CREATE INDEX,
    INSERTs and VACUUMs, the query column @@ q AND ...: every matching row is returned, no row twice, every row returned
    has a document in each column, and matches unless the executor is told to check it again - which happens only for
    weights under a NOT or lexemes stripped of positions. *)
Theorem C49_text_search_partial : forall (K : Type) (compareFn : N -> K -> K -> Z) altOf attrOf cmpA rawSize (dflt : K) useAlt addTo built history ix,
  table_index compareFn altOf attrOf cmpA rawSize dflt useAlt addTo built history ix ->
  let table := rows_now built history in
  forall attach curKeyOrdering tuplesort junk joinFn canPre estimate sortEnts visit iterate tbmMax,
  sorter tuplesort -> junk_harmless compareFn history ix junk -> (forall f a, joinFn addTo = Some f -> f a a = a) -> sorts_entries useAlt addTo cmpA sortEnts ->
  forall build read qsort (doc : N -> @hrow K datum -> option document), sorts_words qsort ->
  forall conds : list (N * option tsq), conds <> [] ->
  (forall s, In s conds -> text_column compareFn build dflt table (fst s) (doc (fst s)) /\ fst s <> addTo /\ joinFn (fst s) = Some joinDatum) ->
  (forall s q, In s conds -> snd s = Some q -> keys_fit compareFn (fst s) build read table (doc (fst s)) q /\ query_fits table (doc (fst s)) q) ->
  scan_fits canPre conds ->
  exists out,
    queryScan dflt addTo attach curKeyOrdering compareFn useAlt cmpA tuplesort junk joinFn canPre estimate sortEnts visit iterate tbmMax ix
      (map (fun s => textClause build (fun a b => gin_cmp_prefix (read a) (read b)) qsort rum_tsquery_consistent (fst s) (snd s)) conds) [] = Some out /\
    NoDup (map fst out) /\
    (forall p re, In (p, re) out -> exists r, In r table /\ r_tid r = p /\
       (forall s, In s conds -> exists d, doc (fst s) r = Some d /\ (re = false -> tsmatches d (snd s))) /\
       (re = true -> exists s q d, In s conds /\ snd s = Some q /\ doc (fst s) r = Some d /\ (weighted_under_not false q \/ exists o, in_query o q /\ stripped d o))) /\
    (forall r, In r table -> (forall s, In s conds -> exists d, doc (fst s) r = Some d /\ tsmatches d (snd s)) -> exists re, In (r_tid r, re) out).
Proof.
  intros K compareFn altOf attrOf cmpA rawSize dflt useAlt addTo built history ix Hti table attach cko tuplesort junk joinFn canPre estimate sortEnts visit iterate tbmMax Ht HJ Hid Hs build read qsort doc Hqs conds Hne HC HW Hscan.
  destruct (text_query K compareFn altOf attrOf cmpA rawSize dflt useAlt addTo built history ix Hti attach cko tuplesort junk joinFn canPre estimate sortEnts visit iterate tbmMax Ht HJ Hid Hs true build read qsort doc Hqs conds Hne
    (fun s H => proj1 (HC s H)) (fun s q H E => proj1 (HW s q H E)) (fun s q H E => proj1 (proj2 (proj2 (HW s q H E)))) (fun _ s q H E => proj2 (HW s q H E)) (fun s H => proj1 (proj2 (HC s H))) (fun _ s H => proj2 (proj2 (HC s H))) Hscan)
    as (out & H1 & H2 & H3 & H4). exists out. split; [exact H1|]. split; [exact H2|]. split; [|exact H4]. intros p re Hin. destruct (H3 p re Hin) as (r & Hr & Hp & A & B). exists r. auto.
Qed.
Print Assumptions C49_text_search_partial.

(** The classes whose column carries another column's values (rum_tsvector_addon_ops, rum_tsvector_hash_addon_ops, the
    timestamp classes): the same, except that the executor is asked to check more. *)
Theorem C49_addon_search_partial : forall (K : Type) (compareFn : N -> K -> K -> Z) altOf attrOf cmpA rawSize (dflt : K) useAlt addTo built history ix,
  table_index compareFn altOf attrOf cmpA rawSize dflt useAlt addTo built history ix ->
  let table := rows_now built history in
  forall attach curKeyOrdering tuplesort junk joinFn canPre estimate sortEnts visit iterate tbmMax,
  sorter tuplesort -> junk_harmless compareFn history ix junk -> (forall f a, joinFn addTo = Some f -> f a a = a) -> sorts_entries useAlt addTo cmpA sortEnts ->
  addTo <> attach -> (useAlt = true -> forall r, In r table -> r_attach r <> None) ->
  forall build read qsort (doc : @hrow K datum -> option document), sorts_words qsort -> text_column compareFn build dflt table addTo doc ->
  forall queries : list (option tsq), queries <> [] ->
  (forall q, In (Some q) queries -> keys_fit compareFn addTo build read table doc q /\ modes_agree q) ->
  scan_fits canPre (map (fun q => (addTo, q)) queries) ->
  exists out,
    queryScan dflt addTo attach curKeyOrdering compareFn useAlt cmpA tuplesort junk joinFn canPre estimate sortEnts visit iterate tbmMax ix
      (map (textClause build (fun a b => gin_cmp_prefix (read a) (read b)) qsort rum_tsquery_timestamp_consistent addTo) queries) [] = Some out /\
    NoDup (map fst out) /\
    (forall p re, In (p, re) out -> exists r d, In r table /\ r_tid r = p /\ doc r = Some d /\ (re = false -> forall q, In q queries -> tsmatches d q)) /\
    (forall r d, In r table -> doc r = Some d -> (forall q, In q queries -> tsmatches d q) -> exists re, In (r_tid r, re) out).
Proof.
  intros K compareFn altOf attrOf cmpA rawSize dflt useAlt addTo built history ix Hti table attach cko tuplesort junk joinFn canPre estimate sortEnts visit iterate tbmMax Ht HJ Hid Hs Hat Hnn build read qsort doc Hqs HC queries Hne HW Hscan.
  set (conds := map (fun q => (addTo, q)) queries) in *.
  assert (Hc : forall s, In s conds -> fst s = addTo /\ In (snd s) queries) by (intros s H; apply in_map_iff in H as (q & <- & H); auto).
  destruct (text_query K compareFn altOf attrOf cmpA rawSize dflt useAlt addTo built history ix Hti attach cko tuplesort junk joinFn canPre estimate sortEnts visit iterate tbmMax Ht HJ Hid Hs false build read qsort (fun _ => doc) Hqs conds)
    as (out & H1 & H2 & H3 & H4).
  - intro E. apply map_eq_nil in E. auto.
  - intros s H. destruct (Hc s H) as [-> _]. exact HC.
  - intros s q H E. destruct (Hc s H) as [-> Hq]. rewrite E in Hq. apply HW. exact Hq.
  - intros s q H E. destruct (Hc s H) as [_ Hq]. rewrite E in Hq. apply HW. exact Hq.
  - discriminate.
  - split; [intros s H; apply Hc; exact H|]. auto.
  - discriminate.
  - exact Hscan.
  - exists out. unfold conds in H1. rewrite map_map in H1. split; [exact H1|]. split; [exact H2|]. split.
    + intros p re Hin. destruct (H3 p re Hin) as (r & Hr & Hp & A & _). destruct queries as [|q0 queries]; [destruct (Hne eq_refl)|]. destruct (A (addTo, q0)) as (d & Ed & _); [left; reflexivity|]. exists r, d. split; [exact Hr|]. split; [exact Hp|]. split; [exact Ed|].
      intros Ere q Hq. destruct (A (addTo, q)) as (d' & Ed' & Hm); [apply (in_map (fun q => (addTo, q))); exact Hq|]. rewrite Ed in Ed'. injection Ed' as <-. exact (Hm Ere).
    + intros r d Hr Hd Hm. apply (H4 r Hr). intros s H. exists d. split; [exact Hd|]. apply Hm. apply Hc. exact H.
Qed.
Print Assumptions C49_addon_search_partial.

(** Seven rows of two tsvector columns; row 7 has the document of C31, row 5 one stripped of positions. *)
Example C49_hypotheses_met :
  table_index wf (alt2 0) bytea dcmp wsz [] false 0 [] (map EIns dtable) dix /\ sorts_entries false 0 dcmp (sortDown false 0 dcmp) /\ sorts_words sort_word /\
  (forall att, att = 1%N \/ att = 2%N -> text_column wf (fun w => w) [] dtable att (doc_of att) /\ word_keys wf att (fun w => w) (fun w => w)) /\
  (forall q, In q [exquery1; tq2; tq3; tq4] -> query_fits dtable (doc_of 1) q /\ scan_fits (fun _ => true) [(1%N, Some q)]) /\
  rows_found (fun _ => true) [(1%N, Some exquery1)] = Some [(7%N, false)] /\
  rows_found (fun _ => true) [(1%N, Some tq2)] = Some [(1%N, false); (7%N, false)] /\
  rows_found (fun _ => true) [(1%N, Some tq3)] = Some [(3%N, false); (5%N, true); (6%N, false)].
Proof.
  split; [exact dix_index|]. split; [intro ents; apply sortDown_ok; exact dcmp_total|]. split; [exact sort_word_ok|]. split; [intros att H; split; [exact (d_column att H)|exact (d_words att)]|].
  split; [|destruct d_values as (H1 & H2 & H3 & _); auto].
  intros q [<-|[<-|[<-|[<-|[]]]]]; [split; [exact fits_1|exact scan_1]|split; [exact fits_2|exact scan_2]|split; [exact fits_3|exact scan_3]|split; [exact fits_4|exact scan_4]].
Qed.
(** Six rows whose attached values order them. *)
Example C49_addon_hypotheses_met :
  table_index wf alt1 val8 dcmp wsz [] true 1 [] (map EIns atable) aix /\ (forall r, In r atable -> r_attach r <> None) /\ text_column wf (fun w => w) [] atable 1 (adoc_of 1) /\
  option_map (map (fun x => (blk (fst x), snd x))) (a_query [(1%N, Some tq2)]) = Some [(6%N, true); (1%N, true)].
Proof.
  split; [exact aix_index|]. split; [|split; [exact a_column|apply a_values]].
  intros r H. cbn in H. repeat destruct H as [<-|H]; [..|destruct H]; discriminate.
Qed.

(** Refuted, several conditions (class with pre-filter, no prefix operand).  One column, foo:B and bar:A: row 5 ('bar foo'
    without positions) matches both conditions, but only row 7 is returned.  Two columns, foo in both: row 7
    matches, nothing is returned.  Without the fast scan both rows are returned. *)
Theorem C49_several_conditions_refuted :
  let foob := QVal (mkOp foo 4 false) in let bara := QVal (mkOp bar 8 false) in
  (exists r, In r dtable /\ blk (r_tid r) = 5%N /\ (exists d, doc_of 1 r = Some d /\ matches d foob /\ matches d bara) /\
     rows_found (fun _ => true) [(1%N, Some foob); (1%N, Some bara)] = Some [(7%N, false)] /\
     rows_found (fun _ => false) [(1%N, Some foob); (1%N, Some bara)] = Some [(5%N, true); (7%N, false)]) /\
  (exists r, In r dtable /\ blk (r_tid r) = 7%N /\ (forall att, att = 1%N \/ att = 2%N -> exists d, doc_of att r = Some d /\ matches d (on foo)) /\
     rows_found (fun _ => true) [(1%N, Some (on foo)); (2%N, Some (on foo))] = Some [] /\
     rows_found (fun _ => false) [(1%N, Some (on foo)); (2%N, Some (on foo))] = Some [(7%N, false)]).
Proof.
  cbv zeta. split.
  - exists (drow 5 (nth 4 docs (None, None))). split; [do 4 right; left; reflexivity|]. split; [reflexivity|]. split; [|split; vm_compute; reflexivity].
    eexists. split; [reflexivity|]. split; [exists foo, None|exists bar, None]; (split; [cbn; auto|]); (split; [reflexivity|exact I]).
  - exists (drow 7 (nth 6 docs (None, None))). split; [do 6 right; left; reflexivity|]. split; [reflexivity|]. split; [|split; vm_compute; reflexivity].
    intros att [-> | ->]; (eexists; split; [reflexivity|]); [exists foo, (Some [1; 4 + wB]%N)|exists foo, (Some [1]%N)]; (split; [cbn; auto|]); (split; [reflexivity|]); exists 1%N; (split; [left; reflexivity|left; reflexivity]).
Qed.
Print Assumptions C49_several_conditions_refuted.
