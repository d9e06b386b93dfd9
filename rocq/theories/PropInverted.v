(** C35, C36: indexed tsqueries.  Vocabulary: InvertedSpec.v, QuerySpec.v; model: Inverted.v, IndexScan.v. *)
From Verif Require Import Base Ord OrdProof Codec Entries EntriesSpec Bulk BulkSpec BulkProof EntryTree IndexSpec IndexExamples
  ScanEntry Scan TidBitmap IndexScan LeafCodec VacTreeSpec VacIndex VacScanSpec LifeSpec QuerySpec LifeQuery QueryExamples OrderExamples Array Inverted InvertedSpec InvertedCodec InvertedProof InvertedPath InvertedMake InvertedQuery InvertedExamples.
From Coq Require Import NArith ZArith List Bool Lia.
Import ListNotations.
Local Open Scope Z_scope.

(** C35.  (1) Every 32-bit number written is read back, whatever follows it. *)
Theorem C35_numbers_read_back : forall v rest, (v < 2 ^ 32)%N -> decode_varbyte (encode_varbyte v ++ rest) = Some (v, rest).
Proof. exact decode_encode. Qed.
Print Assumptions C35_numbers_read_back.
(** (2) The entries extracted from any query that can be stored (of less than 2^28 words and operators) are its
    words, once each; the attached value of a word reads back as the steps of all its occurrences in the query tree:
    the operators above it with their numbers and start values, and its negation. *)
Theorem C35_paths_read_back : forall (K : Type) (eqb : K -> K -> bool) q w, (forall x y, eqb x y = true <-> x = y) ->
  make_query_item_wrap q None false = Some [w] -> Z.of_nat (operators q false None) < 2 ^ 28 -> Z.of_nat (words q) < 2 ^ 28 ->
  let c := fst (calc_wraps w 1) in
  NoDup (map fst (extract_wraps eqb c [] [])) /\
  (forall x, In x (map fst (extract_wraps eqb c [] [])) <-> In x (map fst (word_paths c []))) /\
  forall x b, In (x, b) (extract_wraps eqb c [] []) ->
    read_path (length b) b = Some (flat_map (fun e => steps_of (snd e)) (filter (fun e => eqb x (fst e)) (word_paths c []))).
Proof. intros K eqb q w. exact (paths_read_back eqb q w). Qed.
Print Assumptions C35_paths_read_back.
(** (3) The search works on exactly the steps read this way. *)
Theorem C35_search_reads_paths : forall f p steps child nodes, read_path f p = Some steps -> Forall (fun s : step => (1 <= fst (fst s) <= 256)%N) steps ->
  path_loop f p child nodes = Some (snd (fold_left (fun st (s : step) => (next (fst (fst s)), step1 (fst (fst s)) (snd (fst s)) (snd s) (fst st) (snd st))) steps (child, nodes))).
Proof. exact search_reads. Qed.
Print Assumptions C35_search_reads_paths.
(** 300 & !(1 | 300) (that is, 300 & !1 & !300) | 2: word 300 has two paths; 300 itself takes two bytes. *)
Example C35_hypotheses_met :
  decode_varbyte (encode_varbyte 4294967295 ++ [7]%N) = Some (4294967295%N, [7]%N) /\ encode_varbyte 300 = [172; 2]%N /\
  exists t, make_query_item_wrap (TOr (TAnd (w 300) (TNot (TOr (w 1) (w 300)))) (w 2)) None false = Some [t] /\
    map (fun e => (fst e, read_path (length (snd e)) (snd e))) (extract_wraps Z.eqb (fst (calc_wraps t 1)) [] []) =
    [(300, Some [(2%N, 0, false); (1%N, 0, false); (2%N, 0, true); (1%N, 0, false)]); (1, Some [(2%N, 0, true); (1%N, 0, false)]); (2, Some [(1%N, 0, false)])].
Proof. split; [vm_compute; reflexivity|]. split; [reflexivity|]. eexists. split; [reflexivity|]. vm_compute. reflexivity. Qed.

(** C36.  After CREATE INDEX and any INSERTs and VACUUMs of tsqueries of at most 256 merged operators, a search by one or several
    tsvectors returns rows once each and without recheck; every stored query returned is matched by the document, weights
    in the query not looked at; and every stored query matched by a non-empty document is returned if no operation
    inside it holds of the empty document (negations moved to the words).  Missing for the full claim: weights, queries
    like a & !(b & c), the empty document, and more operators (all refuted below), prefix and phrase queries (cannot be
    stored) and empty tsqueries (not modelled). *)
Theorem C36_inverted_search_partial : forall (K : Type) (compareFn : N -> K -> K -> Z) altOf attrOf cmpA rawSize (dflt : K) useAlt addTo built history ix,
  table_index compareFn altOf attrOf cmpA rawSize dflt useAlt addTo built history ix ->
  let table := rows_now built history in
  forall attach curKeyOrdering tuplesort junk joinFn canPre estimate sortEnts visit iterate tbmMax,
  sorter tuplesort -> junk_harmless compareFn history ix junk -> (forall f a, joinFn addTo = Some f -> f a a = a) -> sorts_entries useAlt addTo cmpA sortEnts ->
  forall (eqb : K -> K -> bool) (tsq : N -> @hrow K datum -> option (tsquery K)),
  forall conds, conds <> [] ->
  (forall s, In s conds -> query_column compareFn eqb dflt table (fst s) (tsq (fst s)) /\ fst s <> addTo /\ canPre (fst s) = false /\ is_tsvector (snd s)) ->
  (forall s r q, In s conds -> In r table -> tsq (fst s) r = Some q -> moderate q) ->
  exists out,
    queryScan dflt addTo attach curKeyOrdering compareFn useAlt cmpA tuplesort junk joinFn canPre estimate sortEnts visit iterate tbmMax ix
      (map (fun s => invertedClause dflt (fst s) (snd s)) conds) [] = Some out /\
    NoDup (map fst out) /\
    (forall p re, In (p, re) out -> re = false /\ exists r, In r table /\ r_tid r = p /\
       forall s, In s conds -> exists q, tsq (fst s) r = Some q /\ matches_words (snd s) q /\ (unweighted q -> matches (snd s) q)) /\
    (forall r, In r table ->
       (forall s, In s conds -> snd s <> [] /\ exists q, tsq (fst s) r = Some q /\ needs_words q false None /\ (matches_words (snd s) q \/ unweighted q /\ matches (snd s) q)) ->
       In (r_tid r, false) out).
Proof. exact inverted_query. Qed.
Print Assumptions C36_inverted_search_partial.
(** In particular all queries without negation qualify. *)
Theorem C36_no_negation_qualifies : forall (K : Type) (q : tsquery K), no_negation q -> needs_words q false None.
Proof. intros K q H. exact (no_negation_needs q H None). Qed.
Print Assumptions C36_no_negation_qualifies.
(** Every stored query within the limits gets an answer without leaving the arrays: extraction succeeds exactly for
    queries of words, &, | and !, and the match function is defined on what extraction stored. *)
Theorem C36_answer_defined : forall (K : Type) (eqb : K -> K -> bool) (dflt : K) q l, (forall x y, eqb x y = true <-> x = y) ->
  extract_tsquery eqb dflt q = Some l -> moderate q ->
  forall xs, NoDup xs ->
  let shown x := option_map (fun e => e_add e) (find (fun e => negb (e_isnull e) && eqb x (e_datum e)) l) in
  let nullshown := option_map (fun e => e_add e) (find (fun e => e_isnull e) l) in
  exists b, tsvector_consistent (map shown xs ++ [nullshown]) = Some b /\
    (b = true -> query_true (fun x _ => In x xs) q) /\ (needs_words q false None -> query_true (fun x _ => In x xs) q -> b = true).
Proof. exact stored_answer. Qed.
Print Assumptions C36_answer_defined.

(** Seven rows 1 & !2, !(1 | 2), 1 & !(2 & 3), !7, NULL, (1 | 2) & (3 | 1 | 4), 1:A; documents {1, 3}, {9}, {1, 2, 7}. *)
Example C36_hypotheses_met :
  table_index zf (alt2 0) bytea dcmp ksz 0%Z false 0 [] (map EIns vtable) vix /\ sorts_entries false 0 dcmp (sortDown false 0 dcmp) /\
  query_column zf Z.eqb 0 vtable 1 (tsq_of 1) /\ map (tsq_of 1) vtable = queries /\ (forall r q, In r vtable -> tsq_of 1 r = Some q -> moderate q) /\
  is_tsvector [(1, [0%N]); (3, [0%N])] /\ needs_words (TAnd (w 1) (TNot (w 2))) false None /\ needs_words (TNot (TOr (w 1) (w 2))) false None /\
  found_rows [(1, [0%N]); (3, [0%N])] = Some [(1, false); (3, false); (4, false); (6, false); (7, false)]%N /\
  found_rows [(9, [0%N])] = Some [(2, false); (4, false)]%N /\
  found_rows [(1, [0%N]); (2, []); (7, [])] = Some [(3, false); (6, false); (7, false)]%N.
Proof.
  split; [exact vix_index|]. split; [intro ents; apply sortDown_ok; exact dcmp_total|]. split; [exact v_column|]. split; [reflexivity|]. split; [exact v_moderate|].
  split; [repeat constructor; cbn; intuition discriminate|]. split; [cbn; auto|]. split; [cbn; auto|]. destruct v_values as (H1 & H2 & H3 & _). auto.
Qed.
(** Refuted.  The same index and the document {1}: row 3, 1 & !(2 & 3), is matched but not returned; row 7, 1:A, is
    returned without recheck although 1 has weight D only; the empty document finds nothing, not even !7; and a query of
    257 operators makes the search leave its array of nodes. *)
Theorem C36_all_queries_refuted :
  (exists r q, In r vtable /\ tsq_of 1 r = Some q /\ plain q /\ unweighted q /\ matches [(1, [0%N])] q /\ ~ exists l, v_query [(1, [0%N])] = Some l /\ In (r_tid r) (map fst l)) /\
  (exists r q, In r vtable /\ tsq_of 1 r = Some q /\ ~ matches [(1, [0%N])] q /\ exists l, v_query [(1, [0%N])] = Some l /\ In (r_tid r, false) l) /\
  (exists r q, In r vtable /\ tsq_of 1 r = Some q /\ unweighted q /\ needs_words q false None /\ matches [] q /\ v_query [] = Some []) /\
  (operators deepq false None = 257%nat /\ exists p, deep_path = Some (DVar V4U p) /\ tsvector_consistent [Some (Some (DVar V4U p)); None] = None).
Proof.
  destruct v_values as (_ & _ & _ & V1 & V0). unfold found_rows in V1, V0. split; [|split; [|split; [|exact deep_outside]]].
  - exists (vrow 3 (nth 2 queries None)), (TAnd (w 1) (TNot (TAnd (w 2) (w 3)))). split; [right; right; left; reflexivity|]. split; [reflexivity|]. split; [cbn; auto|]. split; [cbn; auto|]. split.
    + split; [exists [0%N]; cbn; auto|]. intros [(ps & H & _) _]. destruct H as [H|[]]. discriminate.
    + intros (l & El & Hin). rewrite El in V1. cbn [option_map] in V1. apply (f_equal (option_map (map fst))) in V1. cbn [option_map] in V1. injection V1 as V1. rewrite map_map in V1. cbn [fst] in V1.
      apply (in_map blk) in Hin. rewrite map_map in Hin. rewrite V1 in Hin. cbn in Hin. intuition discriminate.
  - exists (vrow 7 (nth 6 queries None)), (TVal 1 8 false). split; [do 6 right; left; reflexivity|]. split; [reflexivity|]. split.
    + cbn. intros (ps & [H|[]] & [H1|(p & Hp & H1)]); [discriminate|]. injection H as <-. destruct Hp as [<-|[]]. discriminate.
    + assert (E : v_query [(1, [0%N])] = Some [(mkIp 1 1, false); (mkIp 4 1, false); (mkIp 6 1, false); (mkIp 7 1, false)]) by (vm_compute; reflexivity). eexists. split; [exact E|]. cbn. auto.
  - exists (vrow 4 (nth 3 queries None)), (TNot (w 7)). split; [do 3 right; left; reflexivity|]. split; [reflexivity|]. split; [reflexivity|]. split; [cbn; auto|]. split; [intros (ps & [] & _)|]. vm_compute. reflexivity.
Qed.
Print Assumptions C36_all_queries_refuted.
