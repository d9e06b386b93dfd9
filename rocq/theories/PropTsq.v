(** C31-C34, C42: full-text search.  Vocabulary: TsqSpec.v; model: Tsq.v. *)
From Verif Require Import Base Ord Codec PosCodec PosSpec Tsq TsqSpec TsqProof TsqPhrase TsqExec TsqExtract PropTsqProof.
Local Open Scope Z_scope.

(** ** C31 *)
(** C31, operator class with positions.  The query keys are extracted, every key is looked up in
    the keys of the row ([found]), and the match function gets what the lookups yield.  Then a
    matching row is accepted, a row accepted without recheck matches, and recheck is asked for
    only when a weighted operand is negated or a lexeme asked for has no positions.  What the
    restrictions [modes_agree], [stripped_alike] and [weights_clear] exclude is covered by
    C34_prefix_mix_refuted, C31_mixed_stripped_refuted and C31_prefix_weight_refuted. *)
Theorem C31_tsquery_consistent_partial :
  forall qsort q d ents m check add,
  sorts_words qsort -> rum_extract_tsquery_internal (fun w => w) qsort q = Some (ents, m) ->
  valid_doc d -> positions_fit d q -> modes_agree q ->
  (forall o, in_query o q -> stripped_alike d o /\ weights_clear d o) ->
  (forall j w pm, nth_error ents j = Some (w, pm) ->
     found (asks_for (mkOp w 0 pm)) (rum_extract_tsvector_internal (fun w => w) d) (nth j check false) (nth j add None)) ->
  let res := rum_tsquery_consistent m check add (Some q) in
  ((matches d q -> fst res = true) /\ (fst res = true -> snd res = false -> matches d q)) /\
  (snd res = true -> weighted_under_not false q \/ exists o, in_query o q /\ stripped d o).
Proof. exact consistent_found. Qed.
Print Assumptions C31_tsquery_consistent_partial.

(** Operands without prefix mark need no restriction on the document. *)
Theorem C31_exact_operands : forall d o, valid_doc d -> o_prefix o = false -> stripped_alike d o /\ weights_clear d o.
Proof. exact exact_operand_restrictions. Qed.
Print Assumptions C31_exact_operands.

(** C31, operator classes whose attached value is not a position list (timestamps and other
    addon classes). *)
Theorem C31_tsquery_addon_consistent :
  forall qsort q d ents m check add,
  sorts_words qsort -> rum_extract_tsquery_internal (fun w => w) qsort q = Some (ents, m) ->
  modes_agree q ->
  (forall j w pm, nth_error ents j = Some (w, pm) ->
     (nth j check false = true <-> exists w' ps, In (w', ps) d /\ asks_for (mkOp w 0 pm) w')) ->
  let res := rum_tsquery_timestamp_consistent m check add (Some q) in
  (matches d q -> fst res = true) /\ (fst res = true -> snd res = false -> matches d q).
Proof. exact timestamp_found. Qed.
Print Assumptions C31_tsquery_addon_consistent.

(** The empty query matches nothing and is not rechecked. *)
Theorem C31_empty_query : forall m check add,
  rum_tsquery_consistent m check add None = (false, false) /\
  rum_tsquery_timestamp_consistent m check add None = (false, false) /\ rum_tsquery_pre_consistent m check None = false.
Proof. repeat split. Qed.
Print Assumptions C31_empty_query.

(** Words of the examples, in ASCII. *)
Definition foo : list N := [102; 111; 111]%N.
Definition foobar : list N := [102; 111; 111; 98; 97; 114]%N.
Definition bar : list N := [98; 97; 114]%N.
Definition wA : N := 3 * 16384. Definition wB : N := 2 * 16384.
Definition exdoc : document := [(bar, Some [2 + wA; 5]%N); (foo, Some [1; 4 + wB]%N); (foobar, Some [3; 9]%N)].
(** bar:A <2> (x | foobar) & fo:D* & !(bar & xx) : mixes AND, OR, NOT, phrase, weight and prefix. *)
Definition exquery : tsq :=
  QAnd (QPhrase 2 (QVal (mkOp bar 8 false)) (QOr (QVal (mkOp [120%N] 0 false)) (QVal (mkOp foobar 0 false))))
       (QAnd (QVal (mkOp [102; 111]%N 1 true)) (QNot (QAnd (QVal (mkOp bar 0 false)) (QVal (mkOp [120; 120]%N 0 false))))).
(* position of a lexeme after bar:A (2): 2 + 2 = 4 is not foobar; so the phrase fails; with <1> it holds *)
Definition exquery1 : tsq :=
  QAnd (QPhrase 1 (QVal (mkOp bar 8 false)) (QOr (QVal (mkOp [120%N] 0 false)) (QVal (mkOp foobar 0 false))))
       (QAnd (QVal (mkOp [102; 111]%N 1 true)) (QNot (QAnd (QVal (mkOp bar 0 false)) (QVal (mkOp [120; 120]%N 0 false))))).
Definition exadd (l : list N) := Some (compress_pos l).
Example C31_hypotheses_met :
  exists ents m check add,
    sorts_words sort_word /\ rum_extract_tsquery_internal (fun w => w) sort_word exquery1 = Some (ents, m) /\
    valid_doc exdoc /\ positions_fit exdoc exquery1 /\ modes_agree exquery1 /\
    (forall o, in_query o exquery1 -> stripped_alike exdoc o /\ weights_clear exdoc o) /\
    (forall j w pm, nth_error ents j = Some (w, pm) ->
       found (asks_for (mkOp w 0 pm)) (rum_extract_tsvector_internal (fun w => w) exdoc) (nth j check false) (nth j add None)) /\
    rum_tsquery_consistent m check add (Some exquery1) = (true, false) /\
    rum_tsquery_consistent m check add (Some exquery) = (false, false).
Proof.
  exists [(bar, false); ([102; 111]%N, true); (foobar, false); ([120%N], false); ([120; 120]%N, false)],
    [0; 0; 0; 0; 4; 0; 1; 0; 0; 2; 3; 0]%nat,
    [true; true; true; false; false], [exadd [2 + wA; 5]%N; exadd [1; 3; 4 + wB; 9]%N; exadd [3; 9]%N; None; None].
  split; [exact sort_word_ok|]. split; [vm_compute; reflexivity|].
  assert (valid_doc exdoc) as Hv.
  { split.
    - repeat (constructor; [cbn; intuition discriminate|]). constructor.
    - intros w l [E|[E|[E|[]]]]; injection E as <- <-; (split; [split; repeat constructor|]); (split; [discriminate|]);
        repeat (constructor; [vm_compute; discriminate|]); constructor. }
  split; [exact Hv|]. split.
  { split; [cbn; repeat split; try lia; reflexivity|].
    intros w l p [E|[E|[E|[]]]]; injection E as <- <-; cbn [In]; intros Hp;
      repeat (destruct Hp as [<-|Hp]; [vm_compute; reflexivity|]); destruct Hp. }
  split.
  { intros o o' Ho Ho'. cbn in Ho, Ho'.
    repeat (destruct Ho as [Ho|Ho]); subst; repeat (destruct Ho' as [Ho'|Ho']); subst; cbn; intros E; try reflexivity; discriminate E. }
  split.
  { intros o Ho. destruct (o_prefix o) eqn:Ep; [|apply exact_operand_restrictions; assumption].
    cbn in Ho. repeat (destruct Ho as [Ho|Ho]); subst; try discriminate. split.
    - intros (w & Hi & _). cbn in Hi. intuition discriminate.
    - right. intros w l w' l' e e' Hi Hi' Ha Ha' He He' Hpos.
      destruct Hi as [E|[E|[E|[]]]]; injection E as <- <-; destruct Hi' as [E|[E|[E|[]]]]; injection E as <- <-;
        try (destruct Ha as [r Er]; discriminate Er); try (destruct Ha' as [r Er]; discriminate Er);
        cbn [In] in He, He'; repeat (destruct He as [<-|He]); try destruct He; repeat (destruct He' as [<-|He']); try destruct He';
        try reflexivity; vm_compute in Hpos; discriminate Hpos. }
  split.
  { intros j w pm Hj.
    assert (forall o k, asks_forb o k = true <-> asks_for o k) as Hb by (intros; apply asks_forb_ok).
    do 5 (destruct j as [|j]; [injection Hj as <- <-; apply (found_eval _ (asks_forb _) _ _ _ (Hb _)); split; vm_compute; reflexivity|]).
    destruct j; discriminate. }
  split; vm_compute; reflexivity.
Qed.

(** ** Documents outside the restrictions of C31 *)
(** A prefix operand with weight can lose a row: 'foo:1A foobar:1B' matches foo:*B, but when both
    lexemes have an entry at one position the join keeps only the first one's weight. *)
Theorem C31_prefix_weight_refuted :
  let d : document := [(foo, Some [1 + wA]%N); (foobar, Some [1 + wB]%N)] in
  let q := QVal (mkOp foo 4 true) in
  exists m check add, rum_extract_tsquery_internal (fun w => w) sort_word q = Some ([(foo, true)], m) /\
    valid_doc d /\ positions_fit d q /\ modes_agree q /\
    found (asks_for (mkOp foo 0 true)) (rum_extract_tsvector_internal (fun w => w) d) (nth 0 check false) (nth 0 add None) /\
    matches d q /\ rum_tsquery_consistent m check add (Some q) = (false, false).
Proof.
  exists [0%nat], [true], [exadd [1 + wA]%N].
  split; [reflexivity|]. split.
  { split.
    - repeat (constructor; [cbn; intuition discriminate|]). constructor.
    - intros w l [E|[E|[]]]; injection E as <- <-; (split; [split; repeat constructor|]); (split; [discriminate|]);
        repeat (constructor; [vm_compute; discriminate|]); constructor. }
  split.
  { split; [cbn; reflexivity|]. intros w l p [E|[E|[]]]; injection E as <- <-; intros [<-|[]]; vm_compute; reflexivity. }
  split; [intros o o' -> ->; reflexivity|]. split.
  { apply (found_eval _ (asks_forb (mkOp foo 0 true)) _ _ _ (fun k => asks_forb_ok _ k)). split; vm_compute; reflexivity. }
  split; [|vm_compute; reflexivity].
  exists foobar, (Some [1 + wB]%N). split; [cbn; auto|]. split; [exists bar; reflexivity|].
  exists (1 + wB)%N. split; [left; reflexivity|]. right. vm_compute. reflexivity.
Qed.
Print Assumptions C31_prefix_weight_refuted.

(** A prefix operand that hits one lexeme with and one without positions: 'foo foobar:1B' matches
    foo:*A (a stripped lexeme matches any weight), but the index drops the NULL. *)
Theorem C31_mixed_stripped_refuted :
  let d : document := [(foo, None); (foobar, Some [1 + wB]%N)] in
  let q := QVal (mkOp foo 8 true) in
  exists m check add, rum_extract_tsquery_internal (fun w => w) sort_word q = Some ([(foo, true)], m) /\
    valid_doc d /\ positions_fit d q /\ modes_agree q /\
    found (asks_for (mkOp foo 0 true)) (rum_extract_tsvector_internal (fun w => w) d) (nth 0 check false) (nth 0 add None) /\
    matches d q /\ rum_tsquery_consistent m check add (Some q) = (false, false).
Proof.
  exists [0%nat], [true], [exadd [1 + wB]%N].
  split; [reflexivity|]. split.
  { split.
    - repeat (constructor; [cbn; intuition discriminate|]). constructor.
    - intros w l [E|[E|[]]]; [discriminate|]; injection E as <- <-; (split; [split; repeat constructor|]); (split; [discriminate|]);
        repeat (constructor; [vm_compute; discriminate|]); constructor. }
  split.
  { split; [cbn; reflexivity|]. intros w l p [E|[E|[]]]; [discriminate|]; injection E as <- <-; intros [<-|[]]; vm_compute; reflexivity. }
  split; [intros o o' -> ->; reflexivity|]. split.
  { apply (found_eval _ (asks_forb (mkOp foo 0 true)) _ _ _ (fun k => asks_forb_ok _ k)). split; vm_compute; reflexivity. }
  split; [|vm_compute; reflexivity].
  exists foo, None. split; [cbn; auto|]. split; [exists []; reflexivity|exact I].
Qed.
Print Assumptions C31_mixed_stripped_refuted.

(** ** C32 *)
(** C32.  A phrase query is answered without recheck, yes exactly when it matches, for every
    nesting of AND, OR, NOT and phrase below it. *)
Theorem C32_phrase_search : forall d n l r m check add,
  let q := QPhrase n l r in
  positions_fit d q ->
  (forall k o, nth_error (items q) k = Some (Some o) ->
     reports d o (nth (nth k m O) check false) (nth (nth k m O) add None)) ->
  (matches d q -> rum_tsquery_consistent m check add (Some q) = (true, false)) /\
  (~ matches d q -> rum_tsquery_consistent m check add (Some q) = (false, false)).
Proof. exact phrase_reported. Qed.
Print Assumptions C32_phrase_search.

(** The specification says one thing for every query and document... *)
Theorem C32_meaning_unique : forall d q, (exists r, ends_at d q r) /\
  forall r r', ends_at d q r -> ends_at d q r' ->
    match r, r' with
    | Unknown, Unknown => True
    | At P w, At P' w' => w = w' /\ forall p, P p <-> P' p
    | _, _ => False
    end.
Proof. exact ends_unique. Qed.
Print Assumptions C32_meaning_unique.
(** ... and for two words it says "b stands n after a". *)
Theorem C32_two_words : forall d n a b, matches d (QPhrase n (QVal a) (QVal b)) <->
  ~ stripped d a /\ ~ stripped d b /\ exists p, occurs_at d a p /\ occurs_at d b (p + n).
Proof. exact two_words. Qed.
Print Assumptions C32_two_words.
(** What a single lexeme without restriction reports: its own stored positions meet the
    hypothesis of C32_phrase_search. *)
Theorem C32_lookup_reports : forall d o present add, valid_doc d -> stripped_alike d o -> weights_clear d o ->
  found (asks_for o) (rum_extract_tsvector_internal (fun w => w) d) present add -> reports d o present add.
Proof. exact found_reports. Qed.
Print Assumptions C32_lookup_reports.
(** The merge never writes past the array its caller sized (rum_ts_utils.c:633-752). *)
Theorem C32_output_array : forall eL eR eB lo ro L R,
  let n := length (phrase_merge eL eR eB lo ro L R) in
  (n <= length L + length R)%nat /\ (eR = false -> n <= length L)%nat /\ (eL = false -> n <= length R)%nat.
Proof. intros eL eR eB lo ro L R. exact (merge_len eL eR eB lo ro L R). Qed.
Print Assumptions C32_output_array.

(** ** C33 *)
(** C33.  [check] marks at least the operands the row has a lexeme for; those not known yet are
    marked too. *)
Theorem C33_prefilter : forall q d m check,
  (forall k o, nth_error (items q) k = Some (Some o) ->
     (exists w ps, In (w, ps) d /\ asks_for o w) -> nth (nth k m O) check false = true) ->
  matches d q -> rum_tsquery_pre_consistent m check (Some q) = true.
Proof. exact prefilter_reported. Qed.
Print Assumptions C33_prefilter.
(** The same, with the marks given per query key; [modes_agree] is what C34 is about. *)
Theorem C33_prefilter_keys : forall qsort q d ents m check,
  sorts_words qsort -> rum_extract_tsquery_internal (fun w => w) qsort q = Some (ents, m) ->
  modes_agree q ->
  (forall j w pm, nth_error ents j = Some (w, pm) ->
     (exists w' ps, In (w', ps) d /\ asks_for (mkOp w 0 pm) w') -> nth j check false = true) ->
  matches d q -> rum_tsquery_pre_consistent m check (Some q) = true.
Proof. exact prefilter_found. Qed.
Print Assumptions C33_prefilter_keys.
(** It does reject: foo & bar when bar is known to be absent. *)
Example C33_rejects :
  let q := QAnd (QVal (mkOp foo 0 false)) (QVal (mkOp bar 0 false)) in
  exists m, rum_extract_tsquery_internal (fun w => w) sort_word q = Some ([(bar, false); (foo, false)], m) /\
  rum_tsquery_pre_consistent m [false; true] (Some q) = false /\ rum_tsquery_pre_consistent m [true; true] (Some q) = true.
Proof. exists [0; 0; 1]%nat. vm_compute. auto. Qed.

(** ** C34 *)
(** C34, words: every operand is mapped, inside the array, to the only key with its word; the
    key's mode is that of some operand with the word, and the operand's own mode when the
    operands with that word agree. *)
Theorem C34_operand_mapping_partial : forall qsort q, sorts_words qsort ->
  exists ents m, rum_extract_tsquery_internal (fun w => w) qsort q = Some (ents, m) /\
    NoDup (map fst ents) /\ length m = qsize q /\
    forall k o, nth_error (items q) k = Some (Some o) ->
      exists pm, nth_error ents (nth k m O) = Some (o_word o, pm) /\
        (exists o', in_query o' q /\ o_word o' = o_word o /\ o_prefix o' = pm) /\
        ((forall o', in_query o' q -> o_word o' = o_word o -> o_prefix o' = o_prefix o) -> pm = o_prefix o).
Proof. exact mapping_words. Qed.
Print Assumptions C34_operand_mapping_partial.

(** C34 fails when the modes differ: 'foobar' matches foo:* & !foo, but whichever of the two
    operands the sort puts first, the row is refused without recheck. *)
Theorem C34_prefix_mix_refuted : forall qsort, sorts_words qsort ->
  let q := QAnd (QVal (mkOp foo 0 true)) (QNot (QVal (mkOp foo 0 false))) in
  let d : document := [(foobar, Some [1%N])] in
  matches d q /\ valid_doc d /\ positions_fit d q /\
  exists ents m, rum_extract_tsquery_internal (fun w => w) qsort q = Some (ents, m) /\
    forall check add, (forall j w pm, nth_error ents j = Some (w, pm) ->
       found (asks_for (mkOp w 0 pm)) (rum_extract_tsvector_internal (fun w => w) d) (nth j check false) (nth j add None)) ->
    rum_tsquery_consistent m check add (Some q) = (false, false).
Proof.
  intros qsort Hq q d. split.
  { split.
    - exists foobar, (Some [1%N]). split; [left; reflexivity|]. split; [exists bar; reflexivity|]. exists 1%N. split; [left; reflexivity|left; reflexivity].
    - intros (w & ps & [E|[]] & Ha & _). injection E as <- <-. discriminate Ha. }
  split.
  { split; [repeat constructor; cbn; tauto|]. intros w l [E|[]]. injection E as <- <-. split; [split; repeat constructor|].
    split; [discriminate|]. repeat constructor. vm_compute. discriminate. }
  split.
  { split; [cbn; repeat split; lia|]. intros w l p [E|[]]. injection E as <- <-. intros [<-|[]]. vm_compute. reflexivity. }
  destruct (Hq (operands q)) as [Hp _]. cbn in Hp.
  unfold rum_extract_tsquery_internal, SortAndUniqItems. cbn [operands items q flat_map app].
  apply Permutation.Permutation_length_2_inv in Hp.
  destruct Hp as [Hp|Hp]; rewrite Hp; eexists _, _; (split; [vm_compute; reflexivity|]); intros check add Hf.
  - specialize (Hf O foo false eq_refl). destruct Hf as (sel & Hsel & Hpres & Hj).
    assert (sel = []) as ->.
    { destruct sel as [|e sel]; [reflexivity|]. exfalso. destruct (proj1 (Hsel e) (or_introl eq_refl)) as [[<-|[]] Hh]. discriminate Hh. }
    assert (nth 0 check false = false) as Hc by (destruct (nth 0 check false); [exfalso; apply (proj1 Hpres eq_refl eq_refl)|reflexivity]).
    unfold rum_tsquery_consistent. cbn [rum_TS_execute q f_in_neg andb plus qsize]. unfold checkcondition_rum. cbn [cv_map cv_check nth].
    rewrite Hc. reflexivity.
  - specialize (Hf O foo true eq_refl). destruct Hf as (sel & Hsel & Hpres & Hj).
    assert (forall e, In e sel -> snd e = exadd [1%N]) as Hall.
    { intros e He. apply Hsel in He. destruct He as [[<-|[]] _]. reflexivity. }
    assert (sel <> []) as Hne.
    { intros ->. assert (In (foobar, exadd [1%N]) []) as []. apply Hsel. split; [left; reflexivity|exists bar; reflexivity]. }
    assert (nth 0 check false = true) as Hc by (apply Hpres; exact Hne).
    assert (exists bs, nth 0 add None = Some bs) as [bs Hadd].
    { destruct sel as [|e sel]; [congruence|]. cbn [map join_all] in Hj. rewrite (Hall e (or_introl eq_refl)) in Hj. cbn [join_add exadd] in Hj.
      revert Hj. unfold exadd. generalize (compress_pos [1%N]). generalize (map snd sel). clear. intros l.
      induction l as [|[x|] l IH]; intros acc; cbn [join_all join_add]; intros H.
      - apply (f_equal (fun o => match o with Some y => y | None => None end)) in H. exists acc. symmetry. exact H.
      - destruct (rum_ts_join_pos acc x); [eapply IH; exact H|discriminate].
      - eapply IH; exact H. }
    unfold rum_tsquery_consistent. cbn [rum_TS_execute q f_in_neg f_calc_not negb andb plus qsize]. unfold checkcondition_rum.
    cbn [cv_map cv_check cv_add cv_recheckPhrase nth o_weight]. rewrite Hc, Hadd. reflexivity.
Qed.
Print Assumptions C34_prefix_mix_refuted.

(** ** C42 *)
(** C42.  With hashed keys (prefix operands are refused, rumscan.c:274-276) the answer is as good as with plain
    ones as long as no lexeme of the document collides with another word of the query. *)
Theorem C42_hashed_lexemes_partial : forall (H : Type) (h : list N -> H) qsort q d ents m check add,
  sorts_words qsort -> rum_extract_tsquery_internal h qsort q = Some (ents, m) ->
  valid_doc d -> positions_fit d q ->
  (forall o, in_query o q -> o_prefix o = false) ->
  (forall o w ps, in_query o q -> In (w, ps) d -> h w = h (o_word o) -> w = o_word o) ->
  (forall j k pm, nth_error ents j = Some (k, pm) ->
     found (fun k' => k' = k) (rum_extract_tsvector_internal h d) (nth j check false) (nth j add None)) ->
  let res := rum_tsquery_consistent m check add (Some q) in
  ((matches d q -> fst res = true) /\ (fst res = true -> snd res = false -> matches d q)) /\
  (snd res = true -> weighted_under_not false q \/ exists o, in_query o q /\ stripped d o).
Proof. intros H h. exact (hash_consistent h). Qed.
Print Assumptions C42_hashed_lexemes_partial.

(** C42 fails on any collision: for words a, b with equal hash, the document 'b:1' is returned
    without recheck for the query a, and lost for the query !a. *)
Theorem C42_collision_refuted : forall (H : Type) (h : list N -> H) a b, a <> b -> h a = h b ->
  let d : document := [(b, Some [1%N])] in
  let q := QVal (mkOp a 0 false) in
  valid_doc d /\ ~ matches d q /\ matches d (QNot q) /\
  forall qsort, exists m, rum_extract_tsquery_internal h qsort q = Some ([(h a, false)], m) /\
    rum_extract_tsquery_internal h qsort (QNot q) = Some ([(h a, false)], 0%nat :: m) /\
    exists check add,
    found (fun k' => k' = h a) (rum_extract_tsvector_internal h d) (nth 0 check false) (nth 0 add None) /\
    rum_tsquery_consistent m check add (Some q) = (true, false) /\
    rum_tsquery_consistent (0%nat :: m) check add (Some (QNot q)) = (false, false).
Proof.
  intros H h a b Hab Hh d q.
  assert (~ matches d q) as Hn.
  { intros (w & ps & [E|[]] & Ha & _). injection E as <- <-. apply Hab. symmetry. exact Ha. }
  split.
  { split; [repeat constructor; cbn; tauto|]. intros w l [E|[]]. injection E as <- <-. split; [split; repeat constructor|].
    split; [discriminate|]. repeat constructor. vm_compute. discriminate. }
  split; [exact Hn|]. split; [exact Hn|]. intros qsort. exists [0%nat].
  assert (word_compare a a = 0) as Haa by (apply wc_eq; reflexivity).
  split; [unfold rum_extract_tsquery_internal; cbn; rewrite Haa; reflexivity|].
  split; [unfold rum_extract_tsquery_internal; cbn; rewrite Haa; reflexivity|].
  exists [true], [exadd [1%N]]. split; [|split; vm_compute; reflexivity].
  exists [(h b, exadd [1%N])]. split; [|split; [split; [discriminate|reflexivity]|reflexivity]].
  intros e. cbn. split; [intros [<-|[]]; auto|intros [[<-|[]] _]; auto].
Qed.
Print Assumptions C42_collision_refuted.

(** A lossy hash (the sum of the bytes) on a document and query it keeps apart. *)
Definition exhash (w : list N) : N := fold_left N.add w 0%N.
Example C42_hypotheses_met :
  let q := QAnd (QPhrase 1 (QVal (mkOp bar 0 false)) (QVal (mkOp foobar 0 false))) (QNot (QVal (mkOp [120; 120]%N 0 false))) in
  exists ents m check add,
    rum_extract_tsquery_internal exhash sort_word q = Some (ents, m) /\ valid_doc exdoc /\ positions_fit exdoc q /\
    (forall o, in_query o q -> o_prefix o = false) /\
    (forall o w ps, in_query o q -> In (w, ps) exdoc -> exhash w = exhash (o_word o) -> w = o_word o) /\
    (forall j k pm, nth_error ents j = Some (k, pm) ->
       found (fun k' => k' = k) (rum_extract_tsvector_internal exhash exdoc) (nth j check false) (nth j add None)) /\
    rum_tsquery_consistent m check add (Some q) = (true, false).
Proof.
  exists [(exhash bar, false); (exhash foobar, false); (exhash [120; 120]%N, false)], [0; 0; 2; 0; 1; 0]%nat,
    [true; true; false], [exadd [2 + wA; 5]%N; exadd [3; 9]%N; None].
  split; [vm_compute; reflexivity|]. split.
  { split.
    - repeat (constructor; [cbn; intuition discriminate|]). constructor.
    - intros w l [E|[E|[E|[]]]]; injection E as <- <-; (split; [split; repeat constructor|]); (split; [discriminate|]);
        repeat (constructor; [vm_compute; discriminate|]); constructor. }
  split.
  { split; [cbn; repeat split; try lia; reflexivity|].
    intros w l p [E|[E|[E|[]]]]; injection E as <- <-; cbn [In]; intros Hp;
      repeat (destruct Hp as [<-|Hp]; [vm_compute; reflexivity|]); destruct Hp. }
  split; [intros o Ho; cbn in Ho; repeat (destruct Ho as [Ho|Ho]); subst; reflexivity|]. split.
  { intros o w ps Ho [E|[E|[E|[]]]]; injection E as <- <-; cbn in Ho; repeat (destruct Ho as [Ho|Ho]); subst; cbn [o_word]; intros Hh;
      try reflexivity; vm_compute in Hh; discriminate Hh. }
  split; [|vm_compute; reflexivity].
  intros j k pm Hj.
  do 3 (destruct j as [|j]; [injection Hj as <- <-; apply (found_eval _ (N.eqb _) _ _ _ (fun k => conj (fun H => eq_sym (proj1 (N.eqb_eq _ _) H)) (fun H => proj2 (N.eqb_eq _ _) (eq_sym H)))); split; vm_compute; reflexivity|]).
  destruct j; discriminate.
Qed.
