(** C43: relevance distance.  Vocabulary: TsqSpec.v, TsRankSpec.v; model: TsRank.v. *)
From Coq Require Import QArith Lqa NArith ZArith Lia Bool List Permutation Sorted Arith.
From Verif Require Import Base Ord Codec PosCodec PosSpec PosProof Tsq TsqSpec TsqProof TsqPhrase TsqExec TsqExtract PropTsqProof PropTsq TextSearch TsRank TsRankSpec TsRankProof TsRankScore TsRankWords TsRankEqual.
Import ListNotations.
Local Open Scope Z_scope.

(** Distance and score of the operators `tsvector <=> tsquery`, rum_ts_distance and rum_ts_score, whatever the document,
    the query, the normalisation method: the score is not negative; the distance is infinite exactly when the score is 0;
    a finite distance is positive, the reciprocal of the score. *)
Theorem C43_operator_distance : forall qsortD cast ln alloc d q method,
  sorts_docr qsortD -> keeps_sign cast -> positive_above_1 ln ->
  let score := rum_ts_score qsortD cast ln alloc d q method in
  let distance := rum_ts_distance qsortD cast ln alloc d q method in
  (0 <= score)%Q /\ (distance = None <-> (score == 0)%Q) /\ forall x, distance = Some x -> (0 < x)%Q /\ (x * score == 1)%Q.
Proof.
  intros qsortD cast ln alloc d q method H1 H2 H3. cbv zeta. unfold rum_ts_distance.
  assert (exists b, scored (rum_ts_score qsortD cast ln alloc d q method) b /\ (b \/ ~ b)) as (b & Hb & Hd).
  { destruct q as [q|]; cbn [rum_ts_score]; [eexists; split; [apply calc_scored; assumption|apply nonempty_dec]|]. exists False. split; [split; [intros []|intros _; reflexivity]|right; auto]. }
  destruct (distance_scored _ _ Hb Hd) as (D1 & D2 & D3). split; [exact D1|]. split; [|exact D3]. rewrite D2. destruct Hb as [B1 B2]. split; [exact B2|]. intros E Hbb. specialize (B1 Hbb). rewrite E in B1. exact (Qlt_irrefl _ B1).
Qed.
Print Assumptions C43_operator_distance.
(** The distance the index sorts by: the same. *)
Theorem C43_index_distance : forall qsortD cast itemAddr m check add nkeys q,
  sorts_docr qsortD -> keeps_sign cast ->
  let score := match q with Some q => calc_score_addinfo qsortD cast itemAddr m check add nkeys q | None => 0%Q end in
  let distance := rum_tsquery_distance qsortD cast itemAddr m check add nkeys q in
  (0 <= score)%Q /\ (distance = None <-> (score == 0)%Q) /\ forall x, distance = Some x -> (0 < x)%Q /\ (x * score == 1)%Q.
Proof.
  intros qsortD cast itemAddr m check add nkeys q H1 H2. cbv zeta. destruct q as [q|]; cbn [rum_tsquery_distance].
  - pose proof (addinfo_scored qsortD cast H1 H2 itemAddr m check add nkeys q) as Hb.
    destruct (distance_scored _ _ Hb (nonempty_dec _)) as (D1 & D2 & D3). split; [exact D1|]. split; [|exact D3]. rewrite D2. destruct Hb as [B1 B2]. split; [exact B2|]. intros E Hbb. specialize (B1 Hbb). rewrite E in B1. exact (Qlt_irrefl _ B1).
  - split; [apply Qle_refl|]. split; [|discriminate]. split; [intros _; reflexivity|reflexivity].
Qed.
Print Assumptions C43_index_distance.

(** Which documents have a finite distance: those of which the query (weights ignored) holds, and that have a word of the
    query.  For queries without phrases whose negated words do not occur in the document; every word asked for
    has positions. *)
Theorem C43_finite_partial : forall qsortD cast ln alloc d q method,
  sorts_docr qsortD -> keeps_sign cast -> positive_above_1 ln ->
  valid_doc d -> words_ascend d -> no_phrase q -> modes_agree q -> positioned d q -> negated_absent (word_of d) q ->
  (rum_ts_distance qsortD cast ln alloc d (Some q) method <> None <-> said (word_of d) q /\ exists o w, in_query o q /\ word_of d w /\ asks_for o w).
Proof.
  intros qsortD cast ln alloc d q method H1 H2 H3 Hv Hd Hq Hm Hp Hn. unfold rum_ts_distance. cbn [rum_ts_score].
  destruct (distance_scored _ _ (calc_scored qsortD cast ln H1 H2 H3 alloc d q method) (nonempty_dec _)) as (_ & D & _). rewrite D.
  rewrite <- (operator_covers qsortD H1 alloc d q Hv Hd Hq Hm Hp Hn). fold (odoc alloc d q). destruct (nonempty_dec (covers false (fun i => i) q (qsortD (odoc alloc d q)))); tauto.
Qed.
Print Assumptions C43_finite_partial.
(** The same in the index: the keys of the query looked up as in C31. *)
Theorem C43_finite_index_partial : forall qsortD cast itemAddr qsort q d ents m check add nkeys,
  sorts_docr qsortD -> keeps_sign cast ->
  sorts_words qsort -> rum_extract_tsquery_internal (fun w => w) qsort q = Some (ents, m) ->
  valid_doc d -> no_phrase q -> modes_agree q -> positioned d q -> negated_absent (word_of d) q ->
  (forall o, in_query o q -> stripped_alike d o /\ weights_clear d o) ->
  (forall j w pm, nth_error ents j = Some (w, pm) ->
     found (asks_for (mkOp w 0 pm)) (rum_extract_tsvector_internal (fun w => w) d) (nth j check false) (nth j add None)) ->
  (rum_tsquery_distance qsortD cast itemAddr m check add nkeys (Some q) <> None <-> said (word_of d) q /\ exists o w, in_query o q /\ word_of d w /\ asks_for o w).
Proof.
  intros qsortD cast itemAddr qsort q d ents m check add nkeys H1 H2 Hs He Hv Hq Hm Hp Hn Hr Hf. cbn [rum_tsquery_distance].
  pose proof (addinfo_scored qsortD cast H1 H2 itemAddr m check add nkeys q) as Hb. destruct (distance_scored _ _ Hb (nonempty_dec _)) as (_ & D & _). rewrite D.
  assert (Hrep : forall k o, nth_error (items q) k = Some (Some o) -> reports d o (nth (nth k m O) check false) (nth (nth k m O) add None)).
  { intros k o Hk. pose proof (Hf _ _ _ (entry_operand (fun w => w) qsort q ents m k o Hs Hm He Hk)) as Hx. assert (Hino : in_query o q) by (apply in_items; exact (nth_error_In _ _ Hk)). destruct (Hr o Hino) as [R1 R2]. exact (found_reports d o _ _ Hv R1 R2 Hx). }
  rewrite <- (index_covers qsortD H1 itemAddr m check add d q Hq Hp Hrep Hn). fold (idoc itemAddr m check add q). destruct (nonempty_dec (covers true (fun i => nth i m O) q (qsortD (idoc itemAddr m check add q)))); tauto.
Qed.
Print Assumptions C43_finite_index_partial.

(** The covers the ranking visits: exactly the windows of the occurrence list of which the query holds but of no shorter
    window inside, from left to right.  The score: every such window adds rank / (n * n * 1.64493406685), [n] counting the windows
    of the same sequence of words up to it, so every window adds a positive amount (if the cover keys do not collide).  [slot]: the operand of an item; [len]: number of
    operands.  For queries without phrases and without NOT, and methods that do not ask for RANK_NORM_EXTDIST or
    RANK_NORM_RDIVRPLUS1. *)
Theorem C43_score_formula_partial : forall keyed slot q doc len method kind,
  tells_apart doc -> addr_by_ops doc -> by_words doc kind ->
  no_phrase q -> no_not q -> StronglySorted (fun x y => d_pos x <= d_pos y) doc -> Forall (fun x => 1 <= d_pos x) doc ->
  has method RANK_NORM_EXTDIST = false -> has method RANK_NORM_RDIVRPLUS1 = false ->
  exists ws, (forall b e, In (b, e) ws <-> minimal_window slot q doc b e) /\ StronglySorted (fun w w' => (fst w < fst w')%nat) ws /\
    map span (covers keyed slot q doc) = ws /\
    (calc_score_docr keyed slot q len doc method == windows_sum kind (window_rank len doc) [] ws)%Q /\
    forall w, In w ws -> (0 < window_rank len doc w)%Q.
Proof.
  intros keyed slot q doc len method kind Hk Had Hkw Hq Hn Hs Hp M1 M2. assert (Ha : agree slot q doc) by (apply neg_off_windows, no_not_off; exact Hn). exists (map span (covers keyed slot q doc)).
  assert (Hw : forall b e, In (b, e) (map span (covers keyed slot q doc)) <-> minimal_window slot q doc b e) by (apply covers_minimal; assumption).
  split; [exact Hw|]. split; [apply spans_sorted; assumption|]. split; [reflexivity|]. split; [rewrite <- (by_words_sum doc _ _ _ Hk Had Hkw); apply score_closed; auto; apply spans_sorted; assumption|].
  intros w H. apply in_map_iff in H as (c & <- & Hc). pose proof (loop_ok keyed slot q Hq doc Hs Hp _ _ _ Hc) as [_ Ho]. rewrite <- (rank_closed slot q doc len c Ho). apply coverRank_pos. destruct Ho as (B & _). lia.
Qed.
Print Assumptions C43_score_formula_partial.

(** The middles of the covers, and the sum of the inverses of the distances from one to the next, as far as they go to the
    right. *)
Definition midpoint (c : cover) : Q := ((inject_Z (c_q c) + inject_Z (c_p c)) / 2)%Q.
Definition gap (w : cover * cover) : Q := (midpoint (snd w) - midpoint (fst w))%Q.
Definition inverse_gaps (cs : list cover) : Q :=
  fold_right (fun w s => (1 / gap w + s)%Q) 0%Q (filter (fun w => negb (Qle_bool (gap w) 0)) (combine cs (tl cs))).
Lemma gap_middle a b : Qle_bool (gap (a, b)) 0 = Qle_bool (middle b) (middle a) /\ (gap (a, b) == middle b - middle a)%Q.
Proof.
  assert (E : forall c, (midpoint c == middle c)%Q) by (intro c; unfold midpoint, middle; rewrite inject_Z_plus; reflexivity).
  split; [|unfold gap; cbn [fst snd]; rewrite !E; reflexivity]. apply eq_iff_eq_true. rewrite !Qle_bool_iff. unfold gap. cbn [fst snd]. rewrite !E. split; intro H; lra.
Qed.
Lemma sumDist_gaps cs : forall c, (sumDist (Some (middle c)) cs == inverse_gaps (c :: cs))%Q.
Proof.
  induction cs as [|d cs IH]; intro c; [reflexivity|]. cbn [sumDist]. cbv zeta. unfold inverse_gaps. cbn [tl combine filter].
  destruct (gap_middle c d) as [E1 E2]. rewrite E1. destruct (Qle_bool (middle d) (middle c)); cbn [negb fold_right]; [exact (IH d)|].
  rewrite E2, (IH d). reflexivity.
Qed.
Lemma inverse_gaps_pos cs : (0 <= inverse_gaps cs)%Q.
Proof.
  unfold inverse_gaps. generalize (combine cs (tl cs)). intro l. induction l as [|w l IH]; [cbn; lra|]. cbn [filter]. destruct (Qle_bool (gap w) 0) eqn:E; cbn [negb]; [exact IH|].
  cbn [fold_right]. apply Qle_bool_false in E. assert (H : (0 < 1 / gap w)%Q) by (apply Qdiv_pos; [reflexivity|exact E]). lra.
Qed.

(** The normalisation methods inside the score: RANK_NORM_EXTDIST divides by the number of covers over the sum of the
    inverse distances of their middles (unless that is 0), RANK_NORM_RDIVRPLUS1 then brings the score below 1. *)
Theorem C43_score_methods : forall keyed slot q len doc method,
  let cs := covers keyed slot q doc in
  let W := calc_score_docr keyed slot q len doc DEF_NORM_METHOD in
  let W' := if has method RANK_NORM_EXTDIST then (if Qeq_bool (inverse_gaps cs) 0 then W else W * inverse_gaps cs / inject_Z (Z.of_nat (length cs)))%Q else W in
  (0 <= inverse_gaps cs)%Q /\
  (calc_score_docr keyed slot q len doc method == if has method RANK_NORM_RDIVRPLUS1 then W' / (W' + 1) else W')%Q /\
  (has method RANK_NORM_RDIVRPLUS1 = true -> (0 <= calc_score_docr keyed slot q len doc method)%Q /\ (calc_score_docr keyed slot q len doc method < 1)%Q).
Proof.
  intros keyed slot q len doc method cs W W'. split; [apply inverse_gaps_pos|].
  assert (HS : (sumDist None cs == inverse_gaps cs)%Q) by (destruct cs as [|c cs']; [reflexivity|exact (sumDist_gaps cs' c)]).
  destruct (docr_score keyed slot q len doc DEF_NORM_METHOD) as [P1 P2]. fold cs W in P1, P2.
  assert (PW : (0 <= W)%Q) by (destruct cs; [rewrite P2 by reflexivity; lra|apply Qlt_le_weak, P1; discriminate]).
  pose proof (inverse_gaps_pos cs) as HG.
  set (V := if has method RANK_NORM_EXTDIST && negb (Nat.eqb (length cs) 0) && negb (Qle_bool (sumDist None cs) 0) then (W / (inject_Z (Z.of_nat (length cs)) / sumDist None cs))%Q else W).
  assert (E : calc_score_docr keyed slot q len doc method = if has method RANK_NORM_RDIVRPLUS1 then (V / (V + 1))%Q else V) by reflexivity.
  assert (EV : (V == W')%Q).
  { unfold V, W'. destruct (has method RANK_NORM_EXTDIST); [|reflexivity]. cbn [andb]. destruct (Nat.eqb_spec (length cs) 0) as [L|L]; cbn [negb andb].
    - assert (Ec : cs = []) by (destruct cs; [reflexivity|discriminate L]). destruct (Qeq_bool (inverse_gaps cs) 0) eqn:G; [reflexivity|]. rewrite Ec in G. discriminate G.
    - destruct (Qle_bool (sumDist None cs) 0) eqn:G; cbn [negb].
      + apply Qle_bool_iff in G. rewrite HS in G. replace (Qeq_bool (inverse_gaps cs) 0) with true; [reflexivity|]. symmetry. apply Qeq_bool_iff. lra.
      + apply Qle_bool_false in G. rewrite HS in G. replace (Qeq_bool (inverse_gaps cs) 0) with false.
        * rewrite HS. assert (H : (0 < inject_Z (Z.of_nat (length cs)))%Q) by (apply inject_pos; lia). field. split; lra.
        * symmetry. apply not_true_iff_false. intro X. apply Qeq_bool_iff in X. lra. }
  assert (PV : (0 <= W')%Q).
  { unfold W'. destruct (has method RANK_NORM_EXTDIST); [|exact PW]. destruct (Qeq_bool _ _); [exact PW|]. destruct cs as [|c cs']; [change (inverse_gaps []) with 0%Q; unfold Qdiv; rewrite Qmult_0_r, Qmult_0_l; apply Qle_refl|].
    apply Qle_shift_div_l; [apply inject_pos; cbn [length]; lia|]. rewrite Qmult_0_l. apply Qmult_le_0_compat; assumption. }
  rewrite E. split; [destruct (has method RANK_NORM_RDIVRPLUS1); rewrite EV; reflexivity|]. intros ->. rewrite EV. split.
  - apply Qle_shift_div_l; [lra|]. lra.
  - apply Qlt_shift_div_r; [lra|]. lra.
Qed.
Print Assumptions C43_score_methods.

(** The index sorts by the distance the operator computes.  For queries without phrases, prefix operands and repeated
    words, documents that have positions for the words asked for, no two of them at one place, and covers whose
    32-bit keys do not collide. *)
Theorem C43_index_is_operator_partial : forall qsortD cast ln itemAddr alloc qsort q d ents m check add,
  sorts_docr qsortD -> keeps_sign cast -> sorts_words qsort -> rum_extract_tsquery_internal (fun w => w) qsort q = Some (ents, m) ->
  valid_doc d -> words_ascend d -> no_phrase q -> no_prefix q -> words_once q -> positioned d q -> places_distinct d q ->
  (forall j w pm, nth_error ents j = Some (w, pm) ->
     found (asks_for (mkOp w 0 pm)) (rum_extract_tsvector_internal (fun w => w) d) (nth j check false) (nth j add None)) ->
  tells_apart (qsortD (docrepAddinfo itemAddr m add (fun j => nth j check false) 0 (items q))) ->
  tells_apart (qsortD (docrep alloc (items q) d (fun _ => false) 0 0 (items q))) ->
  same_distance (rum_tsquery_distance qsortD cast itemAddr m check add (length ents) (Some q)) (rum_ts_distance qsortD cast ln alloc d (Some q) DEF_NORM_METHOD).
Proof. exact index_equals_operator. Qed.
Print Assumptions C43_index_is_operator_partial.

(** Inside the index every two-word phrase is infinitely far from every document: on the way down Cover does not
    store positions when map_item_operand is set (rum_ts_utils.c:1554-1557), and the phrase compares them. *)
Theorem C43_phrase_in_index_refuted : forall qsortD cast itemAddr m check add nkeys n a b,
  sorts_docr qsortD -> keeps_sign cast -> 1 <= n ->
  rum_tsquery_distance qsortD cast itemAddr m check add nkeys (Some (QPhrase n (QVal a) (QVal b))) = None.
Proof.
  intros qsortD cast itemAddr m check add nkeys n a b H1 H2 Hn. cbn [rum_tsquery_distance].
  pose proof (addinfo_scored qsortD cast H1 H2 itemAddr m check add nkeys (QPhrase n (QVal a) (QVal b))) as Hb. destruct (distance_scored _ _ Hb (nonempty_dec _)) as (_ & D & _).
  apply D. rewrite phrase_covers by exact Hn. intro H. exact (H eq_refl).
Qed.
Print Assumptions C43_phrase_in_index_refuted.

(** ** Examples *)
Fixpoint insd (x : docr) (l : list docr) : list docr := match l with [] => [x] | y :: r => if d_pos x <=? d_pos y then x :: l else y :: insd x r end.
Definition sortd (l : list docr) : list docr := fold_right insd [] l.
Lemma insd_perm x l : Permutation (x :: l) (insd x l).
Proof. induction l as [|y l IH]; cbn [insd]; [apply Permutation_refl|]. destruct (d_pos x <=? d_pos y); [apply Permutation_refl|]. eapply Permutation_trans; [apply perm_swap|]. constructor. exact IH. Qed.
Lemma insd_sorted x l : StronglySorted (fun x y => d_pos x <= d_pos y) l -> StronglySorted (fun x y => d_pos x <= d_pos y) (insd x l).
Proof.
  induction 1 as [|y l H IH F]; cbn [insd]; [constructor; constructor|]. destruct (Z.leb_spec (d_pos x) (d_pos y)) as [Hx|Hx].
  - constructor; [constructor; assumption|]. constructor; [exact Hx|]. eapply Forall_impl; [|exact F]. cbn. intros. lia.
  - constructor; [exact IH|]. rewrite Forall_forall in *. intros z Hz. apply (Permutation_in z (Permutation_sym (insd_perm x l))) in Hz as [<-|Hz]; [lia|]. apply F. exact Hz.
Qed.
Lemma sortd_ok : sorts_docr sortd.
Proof.
  intro l. induction l as [|x l [IH1 IH2]]; cbn [sortd fold_right]; [split; constructor|]. fold (sortd l). split; [eapply Permutation_trans; [constructor; exact IH1|apply insd_perm]|apply insd_sorted; exact IH2].
Qed.
Definition same (x : Q) : Q := x.
Lemma same_sign : keeps_sign same.
Proof. split; [auto|]. split; auto. Qed.
Lemma same_above : positive_above_1 same.
Proof. intros x Hx. unfold same. lra. Qed.
Definition addrs (n : nat) : Z := 4096 + 64 * Z.of_nat n.
Definition op (w : N) : tsq := QVal (mkOp [w] 0 false).
Definition far_ (d : document) (q : tsq) : option Q := option_map Qred (rum_ts_distance sortd same same addrs d (Some q) 0).
(** Values of the regression tests (expected/rum.out:135-172 and 403-413); words by number. *)
Definition way : N := 23. Definition go : N := 7. Definition half : N := 8. Definition far' : N := 6.
Definition think : document := [([far'], Some [11%N]); ([go], Some [3; 7]%N); ([15%N], Some [15%N]); ([20%N], Some [1%N]); ([way], Some [14%N])].
Definition castle : document := [([3%N], Some [10%N]); ([half], Some [11%N]); ([12%N], Some [7%N]); ([16%N], Some [2%N]); ([19%N], Some [5%N]); ([way], Some [12%N])].
Definition way_go_half : tsq := QAnd (op way) (QOr (op go) (op half)).
Example C43_published_values :
  far_ think (op way) = Some (32898681337 # 2000000000)%Q /\
  (exists x, far_ castle way_go_half = Some x /\ (82246 # 10000 < x < 82248 # 10000)%Q) /\
  (exists x, far_ think way_go_half = Some x /\ (575726 # 10000 < x < 575728 # 10000)%Q) /\
  (exists x, far_ [([2%N], Some [6237%N]); ([19%N], Some [6238%N])] (QPhrase 1 (op 2) (op 19)) = Some x /\ (822466 # 100000 < x < 822468 # 100000)%Q) /\
  (exists x, far_ [([2%N], Some [6235 + wB; 6237 + wB]%N); ([19%N], Some [5508 + wB; 6233 + wB; 6238 + wB]%N)] (QPhrase 1 (op 2) (op 19)) = Some x /\ (205616 # 100000 < x < 205618 # 100000)%Q).
Proof. split; [vm_compute; reflexivity|]. repeat split; eexists; (split; [vm_compute; reflexivity|split; reflexivity]). Qed.

(** Windows of a finite list, for [tells_apart]. *)
Definition all_windows (doc : list docr) : list (list docr) := flat_map (fun b => map (fun n => firstn n (skipn b doc)) (seq 0 (S (length doc)))) (seq 0 (S (length doc))).
Lemma window_listed doc b e : In (window doc b e) (all_windows doc).
Proof.
  unfold window, all_windows. apply in_flat_map. exists (Nat.min b (length doc)). split; [apply in_seq; lia|]. apply in_map_iff. exists (Nat.min (S (e - b)) (length doc)). split; [|apply in_seq; lia].
  assert (Es : skipn (Nat.min b (length doc)) doc = skipn b doc) by (destruct (Nat.le_gt_cases b (length doc)); [rewrite Nat.min_l by lia; reflexivity|rewrite Nat.min_r by lia; rewrite !skipn_all2 by lia; reflexivity]). rewrite Es.
  destruct (Nat.le_gt_cases (S (e - b)) (length doc)) as [H|H]; [rewrite Nat.min_l by exact H; reflexivity|]. rewrite Nat.min_r by lia. rewrite !firstn_all2; [reflexivity|rewrite skipn_length; lia|rewrite skipn_length; lia].
Qed.
Definition apartb (doc : list docr) : bool :=
  forallb (fun w => forallb (fun w' => negb (coverKey w =? coverKey w') || if list_eq_dec (list_eq_dec Nat.eq_dec) (map d_ops w) (map d_ops w') then true else false) (all_windows doc)) (all_windows doc).
Lemma apartb_ok doc : apartb doc = true -> tells_apart doc.
Proof.
  intros H b e b' e' E. unfold apartb in H. rewrite forallb_forall in H. specialize (H _ (window_listed doc b e)). rewrite forallb_forall in H. specialize (H _ (window_listed doc b' e')). rewrite (proj2 (Z.eqb_eq _ _) E) in H. cbn [negb orb] in H.
  destruct (list_eq_dec _ _ _) as [Ed|]; [exact Ed|discriminate].
Qed.
Lemma think_valid : valid_doc think.
Proof.
  split; [repeat (constructor; [cbn; intuition discriminate|]); constructor|]. intros w l [E|[E|[E|[E|[E|[]]]]]]; injection E as <- <-; (split; [split; repeat constructor|]); (split; [discriminate|]); repeat (constructor; [vm_compute; discriminate|]); constructor.
Qed.
Lemma think_ascends : words_ascend think.
Proof. unfold words_ascend, think. repeat (constructor; [|repeat (constructor; [vm_compute; reflexivity|]); constructor]). constructor. Qed.
Lemma think_positioned q : positioned think q.
Proof. intros o _ (w & H & _). cbn in H. intuition discriminate. Qed.
(** The hypotheses of the theorems hold of a query with AND and OR (and a NOT) on a document of the regression test. *)
Example C43_hypotheses_met :
  (valid_doc think /\ words_ascend think /\ no_phrase (QAnd way_go_half (QNot (op half))) /\ modes_agree (QAnd way_go_half (QNot (op half))) /\ positioned think (QAnd way_go_half (QNot (op half))) /\ negated_absent (word_of think) (QAnd way_go_half (QNot (op half)))) /\
  rum_ts_distance sortd same same addrs think (Some (QAnd way_go_half (QNot (op half)))) 0 <> None /\ rum_ts_distance sortd same same addrs think (Some (QAnd way_go_half (op half))) 0 = None /\
  exists ents m check add,
    rum_extract_tsquery_internal (fun w => w) sort_word way_go_half = Some (ents, m) /\ no_phrase way_go_half /\ no_prefix way_go_half /\ words_once way_go_half /\ positioned think way_go_half /\ places_distinct think way_go_half /\
    (forall j w pm, nth_error ents j = Some (w, pm) -> found (asks_for (mkOp w 0 pm)) (rum_extract_tsvector_internal (fun w => w) think) (nth j check false) (nth j add None)) /\
    tells_apart (sortd (docrepAddinfo addrs m add (fun j => nth j check false) 0 (items way_go_half))) /\ tells_apart (sortd (docrep addrs (items way_go_half) think (fun _ => false) 0 0 (items way_go_half))) /\
    exists x, rum_tsquery_distance sortd same addrs m check add (length ents) (Some way_go_half) = Some x.
Proof.
  split; [|split; [vm_compute; discriminate|split; [vm_compute; reflexivity|]]].
  - split; [exact think_valid|]. split; [exact think_ascends|]. split; [cbn; tauto|]. split; [intros o o' H H'; cbn in H, H'; intuition (subst; reflexivity)|]. split; [apply think_positioned|]. cbn. split; [tauto|]. split; [exact I|].
    intros o -> (w & (ps & H) & Ha). cbn in Ha, H. subst w. intuition discriminate.
  - exists [([go], false); ([half], false); ([way], false)], [0; 0; 1; 0; 2]%nat, [true; false; true], [exadd [3; 7]%N; None; exadd [14%N]].
    split; [vm_compute; reflexivity|]. split; [cbn; tauto|]. split; [intros o H; cbn in H; intuition (subst; reflexivity)|]. split; [repeat (constructor; [cbn; intuition discriminate|]); constructor|]. split; [apply think_positioned|]. split.
    { intros o o' w w' l l' p p' _ _ _ _ [E|[E|[E|[E|[E|[]]]]]] [E'|[E'|[E'|[E'|[E'|[]]]]]] Hp Hp' Ex; injection E as <- <-; injection E' as <- <-; try reflexivity;
        cbn [In] in Hp, Hp'; repeat (destruct Hp as [<-|Hp]); try destruct Hp; repeat (destruct Hp' as [<-|Hp']); try destruct Hp'; vm_compute in Ex; discriminate Ex. }
    split.
    { intros j w pm Hj. do 3 (destruct j as [|j]; [injection Hj as <- <-; apply (found_eval _ (asks_forb _) _ _ _ (fun k => asks_forb_ok _ k)); split; vm_compute; reflexivity|]). destruct j; discriminate. }
    split; [apply apartb_ok; vm_compute; reflexivity|]. split; [apply apartb_ok; vm_compute; reflexivity|]. eexists. vm_compute. reflexivity.
Qed.
(** Occurrences and a query for [C43_score_formula_partial]. *)
Example C43_formula_met : let doc := sortd (docrep addrs (items way_go_half) think (fun _ => false) 0 0 (items way_go_half)) in
  tells_apart doc /\ addr_by_ops doc /\ (exists kind, by_words doc kind) /\
  no_phrase way_go_half /\ no_not way_go_half /\ StronglySorted (fun x y => d_pos x <= d_pos y) doc /\ Forall (fun x => 1 <= d_pos x) doc /\ map span (covers false (fun i => i) way_go_half doc) = [(1, 2)]%nat.
Proof.
  cbv zeta. split; [apply apartb_ok; vm_compute; reflexivity|]. assert (Ha : addr_by_ops (sortd (docrep addrs (items way_go_half) think (fun _ => false) 0 0 (items way_go_half)))).
  { intros x y Hx Hy. vm_compute in Hx, Hy. repeat (destruct Hx as [<-|Hx]; [repeat (destruct Hy as [<-|Hy]; [vm_compute; congruence|]); destruct Hy|]). destruct Hx. }
  split; [exact Ha|]. split.
  { eexists (fun w => coverKey (window (sortd (docrep addrs (items way_go_half) think (fun _ => false) 0 0 (items way_go_half))) (fst w) (snd w))). intros w w'. split; [apply (apartb_ok (sortd (docrep addrs (items way_go_half) think (fun _ => false) 0 0 (items way_go_half)))); vm_compute; reflexivity|].
    intro E. apply same_ops_key; [|exact E]. intros x y Hx Hy. apply Ha; eapply in_window_list; eassumption. }
  split; [cbn; tauto|]. split; [cbn; tauto|]. split; [apply sortd_ok|]. split; [vm_compute; repeat (constructor; [discriminate|]); constructor|vm_compute; reflexivity].
Qed.

(** ** Documents and queries outside the theorems *)
(** A stripped word: one occurrence at position 0, at which Cover gives up.  foo | bar on the document 'foo' 'bar':2 (foo without
    positions): the document matches, the index gives a finite distance, the operator infinity. *)
Theorem C43_stripped_refuted : exists d q ents m check add,
  valid_doc d /\ words_ascend d /\ no_phrase q /\ no_not q /\ matches d q /\ rum_extract_tsquery_internal (fun w => w) sort_word q = Some (ents, m) /\
  (forall j w pm, nth_error ents j = Some (w, pm) -> found (asks_for (mkOp w 0 pm)) (rum_extract_tsvector_internal (fun w => w) d) (nth j check false) (nth j add None)) /\
  rum_ts_distance sortd same same addrs d (Some q) 0 = None /\ rum_tsquery_distance sortd same addrs m check add (length ents) (Some q) <> None.
Proof.
  exists [([go], None); ([way], Some [2%N])], (QOr (op go) (op way)), [([go], false); ([way], false)], [0; 1; 0]%nat, [true; true], [None; exadd [2%N]].
  split.
  { split; [repeat (constructor; [cbn; intuition discriminate|]); constructor|]. intros w l [E|[E|[]]]; [discriminate|]. injection E as <- <-. split; [split; repeat constructor|]. split; [discriminate|]. constructor; [vm_compute; discriminate|constructor]. }
  split; [unfold words_ascend; repeat (constructor; [|repeat (constructor; [vm_compute; reflexivity|]); constructor]); constructor|]. split; [cbn; tauto|]. split; [cbn; tauto|].
  split; [left; exists [go], None; split; [left; reflexivity|]; split; [reflexivity|exact I]|]. split; [vm_compute; reflexivity|]. split.
  { intros j w pm Hj. do 2 (destruct j as [|j]; [injection Hj as <- <-; apply (found_eval _ (asks_forb _) _ _ _ (fun k => asks_forb_ok _ k)); split; vm_compute; reflexivity|]). destruct j; discriminate. }
  split; vm_compute; [reflexivity|discriminate].
Qed.
Print Assumptions C43_stripped_refuted.
(** A word under NOT that occurs: (a | b) & (!a | c) on 'a':1 'c':2 matches, but infinitely far: the upper bound is found
    with NOT taken for true, the lower bound without. *)
Theorem C43_negated_refuted : exists d q, valid_doc d /\ words_ascend d /\ no_phrase q /\ positioned d q /\ matches d q /\ rum_ts_distance sortd same same addrs d (Some q) 0 = None.
Proof.
  exists [([1%N], Some [1%N]); ([3%N], Some [2%N])], (QAnd (QOr (op 1) (op 2)) (QOr (QNot (op 1)) (op 3))).
  split.
  { split; [repeat (constructor; [cbn; intuition discriminate|]); constructor|]. intros w l [E|[E|[]]]; injection E as <- <-; (split; [split; repeat constructor|]); (split; [discriminate|]); (constructor; [vm_compute; discriminate|constructor]). }
  split; [unfold words_ascend; repeat (constructor; [|repeat (constructor; [vm_compute; reflexivity|]); constructor]); constructor|]. split; [cbn; tauto|]. split; [intros o _ (w & H & _); cbn in H; intuition discriminate|]. split; [|vm_compute; reflexivity].
  split; [left; exists [1%N], (Some [1%N]); split; [left; reflexivity|]; split; [reflexivity|]; exists 1%N; split; [left; reflexivity|left; reflexivity]|].
  right. exists [3%N], (Some [2%N]). split; [right; left; reflexivity|]. split; [reflexivity|]. exists 2%N. split; [left; reflexivity|left; reflexivity].
Qed.
Print Assumptions C43_negated_refuted.
(** A repeated word counts twice for the operator, once in the index: way & (way | go) on 'way':14. *)
Theorem C43_repeated_refuted : let d : document := [([way], Some [14%N])] in let q := QAnd (op way) (QOr (op way) (op go)) in
  exists ents m check add x y,
  rum_extract_tsquery_internal (fun w => w) sort_word q = Some (ents, m) /\
  (forall j w pm, nth_error ents j = Some (w, pm) -> found (asks_for (mkOp w 0 pm)) (rum_extract_tsvector_internal (fun w => w) d) (nth j check false) (nth j add None)) /\
  rum_ts_distance sortd same same addrs d (Some q) 0 = Some x /\ rum_tsquery_distance sortd same addrs m check add (length ents) (Some q) = Some y /\ (y == 2 * x)%Q.
Proof.
  cbv zeta. exists [([go], false); ([way], false)], [0; 0; 0; 1; 1]%nat, [false; true], [None; exadd [14%N]]. eexists. eexists. split; [vm_compute; reflexivity|]. split.
  { intros j w pm Hj. do 2 (destruct j as [|j]; [injection Hj as <- <-; apply (found_eval _ (asks_forb _) _ _ _ (fun k => asks_forb_ok _ k)); split; vm_compute; reflexivity|]). destruct j; discriminate. }
  split; [vm_compute; reflexivity|]. split; vm_compute; reflexivity.
Qed.
Print Assumptions C43_repeated_refuted.
