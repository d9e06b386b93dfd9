(** C50: documents in the order of their relevance, from the index.  Vocabulary: QuerySpec.v, TextSpec.v, TsRankSpec.v, TextOrderSpec.v. *)
From Coq Require Import QArith Lqa NArith ZArith Lia List Permutation Sorted Bool Arith.
From Verif Require Import VacTreeSpec VacIndex VacScanSpec LifeSpec LifeProof LifeQuery Base Ord OrdProof Codec PosCodec PosSpec Tsq TsqSpec TsqExtract PropTsqProof PropTsq Entries EntriesSpec Bulk BulkSpec EntryTree IndexSpec ScanEntry Scan TidBitmap IndexScan OrderScan QuerySpec OrderSpec
  EntriesProof BulkProof PropTreeProof PropCodecProof EntryFound IndexScanProof IndexExamples QueryExamples OrderExamples InvertedExamples TextSearch TextSpec TextQuery TextExamples TsRank TsRankSpec TsRankProof TsRankScore TsRankWords TsRankEqual PropRank TextOrder TextOrderSpec TextOrderProof.
Import ListNotations.
Local Open Scope Z_scope.

(** The distance [x] given for a document [d]: positive; finite exactly for the documents of which the query holds and that have a word of it
    (queries without phrases, weights ignored); the distance the operator computes, where C43 says that they agree. *)
Definition relevance (qsortD : list docr -> list docr) (cast : Q -> Q) (itemAddr : nat -> Z) (qsort : list operand -> list operand) (d : document) (q : tsq) (x : option Q) : Prop :=
  (forall y, x = Some y -> (0 < y)%Q) /\
  (no_phrase q -> positioned d q -> negated_absent (word_of d) q -> (x <> None <-> said (word_of d) q /\ exists o w, in_query o q /\ word_of d w /\ asks_for o w)) /\
  (forall ln alloc, agreeing qsortD itemAddr alloc qsort d q -> same_distance x (rum_ts_distance qsortD cast ln alloc d (Some q) DEF_NORM_METHOD)).

(** SELECT ... WHERE column @@ query AND ... ORDER BY column <=> query, ... through an index of tsvector columns with
    positions, as CREATE INDEX, INSERTs and VACUUMs left it: no row twice; ascending distances; the rows that match (those
    with the recheck flag: candidates, for the two reasons of C49); their distances. *)
Theorem C50_order_by_relevance_partial : forall (K : Type) (compareFn : N -> K -> K -> Z) altOf attrOf cmpA rawSize (dflt : K) useAlt addTo built history ix,
  table_index compareFn altOf attrOf cmpA rawSize dflt useAlt addTo built history ix ->
  let table := rows_now built history in
  forall attach curKeyOrdering tuplesort junk joinFn canPre estimate sortEnts visit iterate tbmMax sortItems,
  sorter tuplesort -> junk_harmless compareFn history ix junk -> (forall f a, joinFn addTo = Some f -> f a a = a) -> sorts_entries useAlt addTo cmpA sortEnts -> sorts_items sortItems ->
  forall build read qsort qsortD cast itemAddr (doc : N -> @hrow K datum -> option document), sorts_words qsort -> sorts_docr qsortD -> keeps_sign cast ->
  forall conds orders, conds <> [] ->
  (forall att q, In (att, q) conds \/ (exists q', In (att, q') orders /\ q = Some q') ->
     text_column compareFn build dflt table att (doc att) /\ att <> addTo /\ joinFn att = Some joinDatum /\
     forall q0, q = Some q0 -> keys_fit compareFn att build read table (doc att) q0 /\ query_fits table (doc att) q0) ->
  (forall o, In o orders -> fst o <> attach /\ curKeyOrdering (fst o) = false) ->
  ordered_fits canPre conds orders ->
  exists out,
    orderedScan farCompare None dflt addTo attach curKeyOrdering compareFn useAlt cmpA tuplesort junk joinFn canPre estimate sortEnts visit iterate tbmMax sortItems ix
      (map (text_clause true build read qsort) conds) (map (text_ordering build read qsort qsortD cast itemAddr) orders) = Some out /\
    NoDup (map (fun s => fst (fst s)) out) /\
    StronglySorted (fun a b => nearer_first (snd a) (snd b)) out /\
    (forall p re ds, In (p, re, ds) out -> exists r, In r table /\ r_tid r = p /\
       (forall s, In s conds -> exists d, doc (fst s) r = Some d /\ (re = false -> tsmatches d (snd s))) /\
       (re = true -> exists s q d, In s conds /\ snd s = Some q /\ doc (fst s) r = Some d /\ (weighted_under_not false q \/ exists o, in_query o q /\ stripped d o)) /\
       (re = false -> Forall2 (fun o x => match doc (fst o) r with None => x = None | Some d => relevance qsortD cast itemAddr qsort d (snd o) x end) orders ds)) /\
    (forall r, In r table -> (forall s, In s conds -> exists d, doc (fst s) r = Some d /\ tsmatches d (snd s)) -> exists re ds, In (r_tid r, re, ds) out).
Proof.
  intros K compareFn altOf attrOf cmpA rawSize dflt useAlt addTo built history ix Hti table attach curKeyOrdering tuplesort junk joinFn canPre estimate sortEnts visit iterate tbmMax sortItems Ht HJ Hid Hse Hsi build read qsort qsortD cast itemAddr doc Hqs HqD Hcast conds orders Hne HAll Hord Hscan.
  destruct (text_order K compareFn altOf attrOf cmpA rawSize dflt useAlt addTo built history ix Hti attach curKeyOrdering tuplesort junk joinFn canPre estimate sortEnts visit iterate tbmMax sortItems Ht HJ Hid Hse Hsi build read qsort qsortD cast itemAddr doc Hqs HqD Hcast conds orders Hne HAll Hord Hscan)
    as (out & H1 & H2 & H3 & H4 & H5). exists out. split; [exact H1|]. split; [exact H2|]. split; [exact H3|]. split; [|exact H5].
  intros p re ds Hin. destruct (H4 p re ds Hin) as (r & Hr & Er & A & B & C). exists r. split; [exact Hr|]. split; [exact Er|]. split; [exact A|]. split; [exact B|].
  intro Hre. specialize (C Hre). assert (G : forall o, In o orders -> (forall d, doc (fst o) r = Some d -> valid_doc d) /\ modes_agree (snd o) /\ (forall d, doc (fst o) r = Some d -> forall x, in_query x (snd o) -> stripped_alike d x /\ weights_clear d x)).
  { intros [att q] Ho. destruct (HAll att (Some q)) as ((_ & Hv & _) & _ & _ & Hq); [right; exists q; auto|]. cbn [fst snd]. destruct (Hq q eq_refl) as (_ & _ & Hm & Hf). split; [intros d Hd; exact (Hv r d Hr Hd)|]. split; [exact Hm|]. intros d Hd. exact (proj2 (Hf r d Hr Hd)). }
  clear - C G Hqs HqD Hcast. induction C as [|o x orders ds Hx C IH]; constructor; [|apply IH; intros; apply G; right; assumption].
  destruct (G o (or_introl eq_refl)) as (Hv & Hm & Hf). destruct (doc (fst o) r) as [d|]; [|exact Hx]. destruct Hx as (ents & m & check & add & E1 & E2 & ->). specialize (Hv d eq_refl). specialize (Hf d eq_refl). split; [|split].
  - intros y Hy. destruct (C43_index_distance qsortD cast itemAddr m check add (length ents) (Some (snd o)) HqD Hcast) as (_ & _ & D). apply (D y Hy).
  - intros F1 F2 F3. apply (C43_finite_index_partial qsortD cast itemAddr qsort (snd o) d ents m check add (length ents)); auto.
  - intros ln alloc Hag. exact (agreeing_distance qsortD cast ln itemAddr alloc qsort (snd o) d ents m check add HqD Hcast Hqs E1 Hv E2 Hag).
Qed.
Print Assumptions C50_order_by_relevance_partial.

(** One ordering: two rows without recheck flag, on whose documents index and operator agree (C43), come in the order of the operator's
    distances. *)
Theorem C50_order_of_operator_partial : forall (K : Type) (compareFn : N -> K -> K -> Z) altOf attrOf cmpA rawSize (dflt : K) useAlt addTo built history ix,
  table_index compareFn altOf attrOf cmpA rawSize dflt useAlt addTo built history ix ->
  let table := rows_now built history in
  forall attach curKeyOrdering tuplesort junk joinFn canPre estimate sortEnts visit iterate tbmMax sortItems,
  sorter tuplesort -> junk_harmless compareFn history ix junk -> (forall f a, joinFn addTo = Some f -> f a a = a) -> sorts_entries useAlt addTo cmpA sortEnts -> sorts_items sortItems ->
  forall build read qsort qsortD cast ln itemAddr alloc (doc : N -> @hrow K datum -> option document), sorts_words qsort -> sorts_docr qsortD -> keeps_sign cast ->
  forall conds att q, conds <> [] ->
  (forall att' q', In (att', q') ((att, Some q) :: conds) ->
     text_column compareFn build dflt table att' (doc att') /\ att' <> addTo /\ joinFn att' = Some joinDatum /\
     forall q0, q' = Some q0 -> keys_fit compareFn att' build read table (doc att') q0 /\ query_fits table (doc att') q0) ->
  att <> attach -> curKeyOrdering att = false -> ordered_fits canPre conds [(att, q)] ->
  exists out,
    orderedScan farCompare None dflt addTo attach curKeyOrdering compareFn useAlt cmpA tuplesort junk joinFn canPre estimate sortEnts visit iterate tbmMax sortItems ix
      (map (text_clause true build read qsort) conds) [text_ordering build read qsort qsortD cast itemAddr (att, q)] = Some out /\
    forall a b pre mid post r r', out = pre ++ a :: mid ++ b :: post -> snd (fst a) = false -> snd (fst b) = false ->
      In r table -> r_tid r = fst (fst a) -> In r' table -> r_tid r' = fst (fst b) ->
      forall d d', doc att r = Some d -> doc att r' = Some d' -> agreeing qsortD itemAddr alloc qsort d q -> agreeing qsortD itemAddr alloc qsort d' q ->
      not_farther (rum_ts_distance qsortD cast ln alloc d (Some q) DEF_NORM_METHOD) (rum_ts_distance qsortD cast ln alloc d' (Some q) DEF_NORM_METHOD).
Proof.
  intros K compareFn altOf attrOf cmpA rawSize dflt useAlt addTo built history ix Hti table attach curKeyOrdering tuplesort junk joinFn canPre estimate sortEnts visit iterate tbmMax sortItems Ht HJ Hid Hse Hsi build read qsort qsortD cast ln itemAddr alloc doc Hqs HqD Hcast conds att q Hne HAll Hatt Hcur Hscan.
  destruct (C50_order_by_relevance_partial K compareFn altOf attrOf cmpA rawSize dflt useAlt addTo built history ix Hti attach curKeyOrdering tuplesort junk joinFn canPre estimate sortEnts visit iterate tbmMax sortItems Ht HJ Hid Hse Hsi build read qsort qsortD cast itemAddr doc Hqs HqD Hcast conds [(att, q)] Hne) as (out & H1 & H2 & H3 & H4 & H5).
  { intros att' q' [H|(q0 & [E|[]] & ->)]; apply HAll; [right; exact H|]. injection E as <- <-. left. reflexivity. }
  { intros o [<-|[]]. auto. }
  { exact Hscan. }
  exists out. split; [exact H1|]. intros [[p re] ds] [[p' re'] ds'] pre mid post r r' E Ea Eb Hr Er Hr' Er' d d' Hd Hd' Hag Hag'. cbn [fst snd] in *. subst re re' p p'.
  assert (Hin : In (r_tid r, false, ds) out) by (rewrite E; apply in_or_app; right; left; reflexivity). assert (Hin' : In (r_tid r', false, ds') out) by (rewrite E; apply in_or_app; right; right; apply in_or_app; right; left; reflexivity).
  assert (Htid : forall u v, In u table -> In v table -> r_tid u = r_tid v -> u = v) by (intros u v Hu Hv' Eu; eapply NoDup_map_eq; [exact (now_tids _ _ _ _ _ _ _ _ _ _ _ Hti)|exact Hu|exact Hv'|exact Eu]).
  assert (Hx : forall u du dsu, In u table -> doc att u = Some du -> agreeing qsortD itemAddr alloc qsort du q -> In (r_tid u, false, dsu) out -> exists x, dsu = [x] /\ same_distance x (rum_ts_distance qsortD cast ln alloc du (Some q) DEF_NORM_METHOD)).
  { intros u du dsu Hu Hdu Hau Hiu. destruct (H4 _ _ _ Hiu) as (u' & Hu' & Eu & _ & _ & F). apply Htid in Eu; [|exact Hu'|exact Hu]. subst u'. specialize (F eq_refl). inversion F as [|? x ? t Hx Ft]; subst. inversion Ft; subst. exists x. split; [reflexivity|]. cbn [fst snd] in Hx. rewrite Hdu in Hx. destruct Hx as (_ & _ & Hx). apply Hx. exact Hau. }
  destruct (Hx r d ds Hr Hd Hag Hin) as (x & -> & Sx). destruct (Hx r' d' ds' Hr' Hd' Hag' Hin') as (x' & -> & Sx').
  assert (Hn : not_farther x x').
  { rewrite E in H3. clear - H3. induction pre as [|z pre IH]; cbn [app] in H3.
    - inversion H3 as [|? ? _ F]; subst. rewrite Forall_forall in F. specialize (F (r_tid r', false, [x'])). cbn [snd nearer_first] in F. apply F. apply in_or_app. right. left. reflexivity.
    - inversion H3; subst. apply IH. assumption. }
  destruct x as [x|], x' as [x'|], (rum_ts_distance qsortD cast ln alloc d (Some q) DEF_NORM_METHOD) as [y|], (rum_ts_distance qsortD cast ln alloc d' (Some q) DEF_NORM_METHOD) as [y'|]; cbn in *; try tauto; lra.
Qed.
Print Assumptions C50_order_of_operator_partial.

(** ** Example: the documents of TextExamples.v, WHERE column1 @@ 'foo' ORDER BY column1 <=> 'foo & bar' *)
Definition d_order (q : tsq) : option (list (iptr * bool * list (option Q))) :=
  orderedScan farCompare None [] 0 0 (fun _ => false) wf false dcmp isort (fun _ => item_min) (fun _ => Some joinDatum) (fun _ => true) (fun _ _ => 0%N) (sortDown false 0 dcmp) (fun _ => []) (fun l => l) 1000 isort dix
    (map (text_clause true (fun w => w) (fun w => w) sort_word) [(1%N, Some (on foo))]) (map (text_ordering (fun w => w) (fun w => w) sort_word sortd same addrs) [(1%N, q)]).
Definition foo_bar : tsq := QAnd (on foo) (on bar).
Definition d_rank (q : tsq) : option (list (N * bool * list (option Q))) := option_map (map (fun x => (blk (fst (fst x)), snd (fst x), map (option_map Qred) (snd x)))) (d_order q).
(** Row 7 has both words twice, row 1 both once, row 2 only foo; row 5 is stripped of positions. *)
Lemma d_rank_values : d_rank foo_bar = Some [(7%N, false, [Some (2533198462949 # 1563200000000)%Q]); (1%N, false, [Some (32898681337 # 4000000000)%Q]); (2%N, false, [None]); (5%N, true, [None])].
Proof. vm_compute. reflexivity. Qed.
Lemma fits_plain q : distances_ok q -> total_distance q <= 100 -> (forall o, in_query o q -> o_prefix o = false) -> query_fits dtable (doc_of 1) q.
Proof.
  intros Hd Ht Hp. split; [exact Hd|]. split.
  - intros o o' Ho Ho' _. rewrite (Hp o Ho), (Hp o' Ho'). reflexivity.
  - intros r d H E. split; [exact (small_positions q Hd Ht r d H E)|]. apply (operands_fit q) with r; auto. intros o Ho Ep. rewrite (Hp o Ho) in Ep. discriminate.
Qed.
Example C50_hypotheses_met :
  table_index wf (alt2 0) bytea dcmp wsz [] false 0 [] (map EIns dtable) dix /\ (forall T, @sorter T isort) /\ (forall junk, junk_harmless wf (map EIns dtable) dix junk) /\ sorts_entries false 0 dcmp (sortDown false 0 dcmp) /\ (forall T, @sorts_items T isort) /\
  sorts_words sort_word /\ sorts_docr sortd /\ keeps_sign same /\
  text_column wf (fun w => w) [] dtable 1 (doc_of 1) /\ (forall q, In q [on foo; foo_bar] -> keys_fit wf 1 (fun w => w) (fun w => w) dtable (doc_of 1) q /\ query_fits dtable (doc_of 1) q) /\
  ordered_fits (fun _ => true) [(1%N, Some (on foo))] [(1%N, foo_bar)] /\
  exists d1 d2 d7 x1 x7, map (doc_of 1) dtable = [Some d1; Some d2; Some []; None; Some [(bar, None); (foo, None)]; Some [(foobar, Some [1; 7]%N)]; Some d7] /\
  agreeing sortd addrs addrs sort_word d1 foo_bar /\ agreeing sortd addrs addrs sort_word d7 foo_bar /\ agreeing sortd addrs addrs sort_word d2 foo_bar /\
  rum_ts_distance sortd same same addrs d7 (Some foo_bar) DEF_NORM_METHOD = Some x7 /\ rum_ts_distance sortd same same addrs d1 (Some foo_bar) DEF_NORM_METHOD = Some x1 /\ (x7 < x1)%Q /\
  rum_ts_distance sortd same same addrs d2 (Some foo_bar) DEF_NORM_METHOD = None.
Proof.
  split; [exact dix_index|]. split; [exact (fun T => isort_sorter)|]. split; [intros junk Hv; destruct (no_vacuum _ Hv)|]. split; [intro ents; apply sortDown_ok; exact dcmp_total|]. split; [exact (fun T => isort_items)|].
  split; [exact sort_word_ok|]. split; [exact sortd_ok|]. split; [exact same_sign|]. split; [apply d_column; left; reflexivity|]. split; [|split].
  - intros q [<-|[<-|[]]]; (split; [left; exact (d_words 1)|]); (apply fits_plain; [cbn; repeat split; try lia; reflexivity|vm_compute; discriminate|intros o Ho; cbn in Ho; intuition (subst; reflexivity)]).
  - do 4 right. exists 1%N, (on foo). split; [reflexivity|]. split; [reflexivity|]. intros o [<-|[]]. split; reflexivity.
  - do 5 eexists. split; [vm_compute; reflexivity|].
    assert (A : forall d, d = [(bar, Some [2]%N); (foo, Some [1]%N)] \/ d = exdoc \/ d = [(foo, Some [1]%N)] -> agreeing sortd addrs addrs sort_word d foo_bar).
    { intros d Hd. split; [destruct Hd as [-> |[-> | ->]]; unfold words_ascend, exdoc; repeat (constructor; [|repeat (constructor; [vm_compute; reflexivity|]); constructor]); constructor|].
      split; [cbn; tauto|]. split; [intros o H; cbn in H; intuition (subst; reflexivity)|]. split; [repeat (constructor; [cbn; intuition discriminate|]); constructor|].
      split; [intros o _ (w & H & _); destruct Hd as [-> |[-> | ->]]; cbn in H; intuition discriminate|]. split.
      { intros o o' w w' l l' p p' Ho Ho' Ha Ha' Hi Hi' Hp Hp' Ex. cbn [in_query foo_bar on] in Ho, Ho'. assert (Hw : w = foo \/ w = bar) by (destruct Ho; subst o; cbn in Ha; auto). assert (Hw' : w' = foo \/ w' = bar) by (destruct Ho'; subst o'; cbn in Ha'; auto).
        clear Ho Ho' Ha Ha'. destruct Hd as [-> |[-> | ->]]; pick Hi; pick Hi'; try reflexivity; try (destruct Hw; discriminate); try (destruct Hw'; discriminate);
          cbn [In] in Hp, Hp'; repeat (destruct Hp as [<-|Hp]); try destruct Hp; repeat (destruct Hp' as [<-|Hp']); try destruct Hp'; vm_compute in Ex; discriminate Ex. }
      split; [intros ents m E; vm_compute in E; injection E as <- <-|]; (apply apartb_ok; destruct Hd as [-> |[-> | ->]]; vm_compute; reflexivity). }
    split; [apply A; auto|]. split; [apply A; auto|]. split; [apply A; auto|]. split; [vm_compute; reflexivity|]. split; [vm_compute; reflexivity|]. split; vm_compute; reflexivity.
Qed.
(** Refuted, phrases: ordered by distance to foo <-> bar, rows 1 and 7 match the phrase and have finite distances by the operator; the
    index gives infinity for every row (C43_phrase_in_index_refuted), so their order says nothing. *)
Theorem C50_phrase_order_refuted :
  d_rank tq2 = Some [(1%N, false, [None]); (2%N, false, [None]); (5%N, true, [None]); (7%N, false, [None])] /\
  (exists d1 d7, map (doc_of 1) [nth 0 dtable (drow 0 (None, None)); nth 6 dtable (drow 0 (None, None))] = [Some d1; Some d7] /\ matches d1 tq2 /\ matches d7 tq2 /\
  exists x1 x7, rum_ts_distance sortd same same addrs d1 (Some tq2) DEF_NORM_METHOD = Some x1 /\ rum_ts_distance sortd same same addrs d7 (Some tq2) DEF_NORM_METHOD = Some x7 /\ (x7 < x1)%Q).
Proof.
  split; [vm_compute; reflexivity|].
  do 2 eexists. split; [reflexivity|].
  split; [apply C32_two_words; split; [intros (w & H & _); cbn in H; intuition discriminate|]; split; [intros (w & H & _); cbn in H; intuition discriminate|]; exists 1; split; [exists foo, [1%N], 1%N|exists bar, [2%N], 2%N]; (split; [cbn; auto|split; [reflexivity|split; [cbn; auto|split; [left; reflexivity|reflexivity]]]])|].
  split; [apply C32_two_words; split; [intros (w & H & _); cbn in H; intuition discriminate|]; split; [intros (w & H & _); cbn in H; intuition discriminate|]; exists 1; split; [exists foo, [1; 4 + wB]%N, 1%N|exists bar, [2 + wA; 5]%N, (2 + wA)%N]; (split; [cbn; auto|split; [reflexivity|split; [cbn; auto|split; [left; reflexivity|reflexivity]]]])|].
  do 2 eexists. split; [vm_compute; reflexivity|]. split; [vm_compute; reflexivity|]. vm_compute. reflexivity.
Qed.
Print Assumptions C50_phrase_order_refuted.
