(** C43: which documents have a finite distance. *)
From Coq Require Import QArith Qfield Lqa NArith ZArith Lia Bool List Permutation Sorted Arith.
From Verif Require Import Base Ord Codec PosCodec PosSpec Tsq TsqSpec TsqProof TsqPhrase TsqExec TsqExtract PropTsqProof TextSearch TextQuery TsRank TsRankSpec TsRankProof TsRankScore.
Import ListNotations.
Local Open Scope Z_scope.

(** ** find_wordentry *)
Lemma wc_flip a b : word_compare a b < 0 <-> 0 < word_compare b a.
Proof.
  revert b. induction a as [|x a IH]; intros [|y b]; cbn; try lia. rewrite (N.eqb_sym y x). destruct (N.eqb_spec x y) as [->|H]; [apply IH|]. destruct (N.ltb_spec x y), (N.ltb_spec y x); lia.
Qed.
Lemma wc_lt_trans a b c : word_compare a b <= 0 -> word_compare b c < 0 -> word_compare a c < 0.
Proof.
  intros H1 H2. pose proof (wc_trans a b c H1 ltac:(lia)) as H3. destruct (Z.eq_dec (word_compare a c) 0) as [E|E]; [|lia]. apply wc_eq in E. subst c. assert (b = a) by (apply wc_antisym; lia). subst b.
  apply wc_flip in H2. pose proof (proj2 (wc_eq a a) eq_refl). lia.
Qed.
Section Find.
  Variables (d : document) (Hd : words_ascend d).
  Lemma wordAt_nth k w ps : nth_error d k = Some (w, ps) -> wordAt d k = w.
  Proof. intro H. unfold wordAt. rewrite (nth_error_nth _ _ _ H). reflexivity. Qed.
  Lemma ascend_nth : forall j k, (j < k < length d)%nat -> word_compare (wordAt d j) (wordAt d k) < 0.
  Proof.
    intros j k H. destruct (nth_error d j) as [[w ps]|] eqn:E1; [|apply nth_error_None in E1; lia]. destruct (nth_error d k) as [[w' ps']|] eqn:E2; [|apply nth_error_None in E2; lia].
    rewrite (wordAt_nth _ _ _ E1), (wordAt_nth _ _ _ E2). unfold words_ascend in Hd. clear -Hd H E1 E2. revert j k H E1 E2. induction Hd as [|e l Hs IH F]; intros j k H E1 E2; [destruct j; discriminate|].
    destruct k as [|k]; [lia|]. destruct j as [|j]; cbn [nth_error] in *.
    - injection E1 as ->. rewrite Forall_forall in F. exact (F _ (nth_error_In _ _ E2)).
    - apply (IH Hs j k); auto. cbn [length] in H. lia.
  Qed.
  Lemma search_spec w fuel : forall lo hi, (hi <= length d)%nat -> (hi - lo < fuel)%nat -> (lo <= hi)%nat ->
    (forall k, (k < lo)%nat -> 0 < word_compare w (wordAt d k)) -> (forall k, (hi <= k < length d)%nat -> word_compare w (wordAt d k) < 0) ->
    let '(p, hit) := searchWord fuel d w lo hi in
    (p <= length d)%nat /\ (forall k, (k < p)%nat -> 0 < word_compare w (wordAt d k)) /\
    (if hit then (p < length d)%nat /\ word_compare w (wordAt d p) = 0 else forall k, (p <= k < length d)%nat -> word_compare w (wordAt d k) < 0).
  Proof.
    induction fuel as [|f IH]; intros lo hi H1 H2 H3 H4 H5; [lia|]. cbn [searchWord]. destruct (Nat.ltb_spec lo hi) as [Hl|Hl].
    - set (mid := (lo + (hi - lo) / 2)%nat). assert (Hm : (lo <= mid < hi)%nat) by (pose proof (Nat.div_lt (hi - lo) 2 ltac:(lia) ltac:(lia)); unfold mid; lia).
      destruct (Z.eqb_spec (word_compare w (wordAt d mid)) 0) as [E|E].
      + split; [lia|]. split; [|split; [lia|exact E]]. intros k Hk. apply wc_eq in E. subst w. apply wc_flip. apply ascend_nth. lia.
      + destruct (Z.ltb_spec 0 (word_compare w (wordAt d mid))) as [Hp|Hp].
        * apply IH; auto; try lia. intros k Hk. destruct (Nat.eq_dec k mid) as [->|Hn]; [exact Hp|]. apply wc_flip. apply wc_flip in Hp. apply (wc_lt_trans _ (wordAt d mid)); [|exact Hp]. apply Z.lt_le_incl, ascend_nth. lia.
        * apply IH; auto; try lia. intros k Hk. destruct (Nat.eq_dec k mid) as [->|Hn]; [lia|]. apply (wc_lt_trans _ (wordAt d mid)); [lia|]. apply ascend_nth. lia.
    - split; [lia|]. split; [intros k Hk; apply H4; lia|intros k Hk; apply H5; lia].
  Qed.
  Lemma prefixRun_spec w l : (prefixRun w l <= length l)%nat /\ (forall k e, (k < prefixRun w l)%nat -> nth_error l k = Some e -> is_prefix w (fst e) = true) /\
    (forall e, nth_error l (prefixRun w l) = Some e -> is_prefix w (fst e) = false).
  Proof.
    induction l as [|e l (I1 & I2 & I3)]; cbn [prefixRun length]; [split; [lia|]; split; [intros k e H; lia|intros e H; discriminate]|]. destruct (is_prefix w (fst e)) eqn:E.
    - split; [lia|]. split; [intros [|k] e' Hk He; cbn [nth_error] in He; [injection He as <-; exact E|apply (I2 k e'); [lia|exact He]]|exact I3].
    - split; [lia|]. split; [intros k e' Hk; lia|]. intros e' He. cbn [nth_error] in He. injection He as <-. exact E.
  Qed.
  Lemma ne_window (l : document) f n e : In e (firstn n (skipn f l)) <-> exists k, (f <= k < f + n)%nat /\ nth_error l k = Some e.
  Proof.
    split.
    - intro H. apply In_nth_error in H as (k & Hk). assert (Hlt : (k < n)%nat). { assert (k < length (firstn n (skipn f l)))%nat by (apply nth_error_Some; congruence). rewrite firstn_length in H. lia. }
      rewrite ne_firstn, ne_skipn in Hk by exact Hlt. exists (f + k)%nat. split; [lia|exact Hk].
    - intros (k & Hk & E). apply (nth_error_In _ (k - f)). rewrite ne_firstn by lia. rewrite ne_skipn. replace (f + (k - f))%nat with k by lia. exact E.
  Qed.
  Lemma find_spec o :
    match find_wordentry d o with
    | Some (f, n) => (0 < length (firstn n (skipn f d)))%nat /\ forall e, In e (firstn n (skipn f d)) <-> In e d /\ asks_for o (fst e)
    | None => forall e, In e d -> ~ asks_for o (fst e)
    end.
  Proof.
    unfold find_wordentry. pose proof (search_spec (o_word o) (S (length d)) 0 (length d) (le_n _) ltac:(lia) ltac:(lia) ltac:(intros; lia) ltac:(intros; lia)) as Hs.
    destruct (searchWord (S (length d)) d (o_word o) 0 (length d)) as [p hit]. destruct Hs as (P1 & P2 & P3).
    assert (Hge : forall k, (p <= k < length d)%nat -> word_compare (o_word o) (wordAt d k) <= 0).
    { intros k Hk. destruct hit; [|apply Z.lt_le_incl, P3; exact Hk]. destruct P3 as [P3 P4]. destruct (Nat.eq_dec k p) as [->|Hn]; [lia|]. apply wc_eq in P4. rewrite P4. apply Z.lt_le_incl, ascend_nth. lia. }
    set (n := if o_prefix o then _ else _).
    assert (Main : (n <= length d - p)%nat /\ forall k e, nth_error d k = Some e -> ((p <= k < p + n)%nat <-> asks_for o (fst e))).
    { unfold n, asks_for. clear n. destruct (o_prefix o).
      - destruct (prefixRun_spec (o_word o) (skipn p d)) as (R1 & R2 & R3). rewrite skipn_length in R1. set (m := prefixRun (o_word o) (skipn p d)) in *. split; [exact R1|]. intros k e Hk. rewrite <- is_prefix_spec. split.
        + intro H. apply (R2 (k - p)%nat e); [lia|]. rewrite ne_skipn. replace (p + (k - p))%nat with k by lia. exact Hk.
        + intro H. assert (Hlt : (k < length d)%nat) by (apply nth_error_Some; congruence). destruct e as [w ps]. pose proof (wordAt_nth _ _ _ Hk) as Ew. cbn [fst] in H.
          assert (Hpk : (p <= k)%nat). { destruct (Nat.le_gt_cases p k) as [Hx|Hx]; [exact Hx|]. specialize (P2 _ Hx). rewrite Ew in P2. pose proof (prefix_le _ _ H). lia. }
          split; [exact Hpk|]. destruct (Nat.le_gt_cases (p + m) k) as [Hx|Hx]; [|exact Hx]. exfalso.
          destruct (nth_error d (p + m)) as [[w0 ps0]|] eqn:E0; [|apply nth_error_None in E0; lia]. specialize (R3 (w0, ps0)). rewrite ne_skipn in R3. specialize (R3 E0). cbn [fst] in R3. pose proof (wordAt_nth _ _ _ E0) as Ew0.
          destruct (Nat.eq_dec k (p + m)) as [->|Hn]; [rewrite Hk in E0; injection E0 as -> ->; congruence|].
          pose proof (ascend_nth (p + m) k ltac:(lia)) as Hc. rewrite Ew, Ew0 in Hc. pose proof (Hge (p + m)%nat ltac:(lia)) as Hg. rewrite Ew0 in Hg. rewrite (prefix_stop (o_word o) w0 w Hg ltac:(lia) R3) in H. discriminate.
      - destruct hit.
        + destruct P3 as [P3 P4]. split; [lia|]. intros k [w ps] Hk. pose proof (wordAt_nth _ _ _ Hk) as Ew. cbn [fst]. apply wc_eq in P4. assert (Hlt : (k < length d)%nat) by (apply nth_error_Some; congruence). split.
          * intro H. replace k with p in * by lia. congruence.
          * intro H. destruct (Nat.lt_trichotomy k p) as [Hx|[->|Hx]]; [|lia|]; exfalso.
            -- specialize (P2 _ Hx). rewrite Ew, H in P2. pose proof (proj2 (wc_eq (o_word o) (o_word o)) eq_refl). lia.
            -- pose proof (ascend_nth p k ltac:(lia)) as Hc. rewrite Ew, H, <- P4 in Hc. pose proof (proj2 (wc_eq (o_word o) (o_word o)) eq_refl). lia.
        + split; [lia|]. intros k [w ps] Hk. pose proof (wordAt_nth _ _ _ Hk) as Ew. cbn [fst]. assert (Hlt : (k < length d)%nat) by (apply nth_error_Some; congruence). split; [lia|]. intro H. exfalso.
          pose proof (proj2 (wc_eq (o_word o) (o_word o)) eq_refl) as E0. destruct (Nat.le_gt_cases p k) as [Hx|Hx]; [specialize (P3 k ltac:(lia))|specialize (P2 _ Hx)]; rewrite Ew, H in *; lia. }
    destruct Main as [M1 M2]. destruct (Nat.ltb_spec 0 n) as [Hn|Hn].
    - split; [rewrite firstn_length, skipn_length; lia|]. intro e. rewrite ne_window. split.
      + intros (k & Hk & E). split; [exact (nth_error_In _ _ E)|]. apply (M2 k e E). exact Hk.
      + intros [Hin Ha]. apply In_nth_error in Hin as (k & E). exists k. split; [apply (M2 k e E); exact Ha|exact E].
    - intros e Hin Ha. apply In_nth_error in Hin as (k & E). apply (M2 k e E) in Ha. lia.
  Qed.
End Find.

(** ** get_docrep *)
(** [o'] asks for the words [o] does. *)
Definition alike (o o' : operand) : Prop := o_word o' = o_word o /\ o_prefix o' = o_prefix o.
Lemma alike_asks o o' w : alike o o' -> (asks_for o w <-> asks_for o' w).
Proof. intros [E1 E2]. unfold asks_for. rewrite E1, E2. reflexivity. Qed.
Lemma sameItems_in its o j : In j (sameItems its o) <-> exists o', nth_error its j = Some (Some o') /\ o_word o' = o_word o.
Proof.
  unfold sameItems. rewrite filter_In, in_seq. split.
  - intros [H1 H2]. destruct (nth_error its j) as [x|] eqn:E; [|apply nth_error_None in E; lia]. rewrite (nth_error_nth _ _ _ E) in H2. unfold sameWord in H2. destruct x as [o'|]; [|discriminate]. apply Z.eqb_eq, wc_eq in H2. eauto.
  - intros (o' & E & Ew). split; [assert (j < length its)%nat by (apply nth_error_Some; congruence); lia|]. rewrite (nth_error_nth _ _ _ E). unfold sameWord. apply Z.eqb_eq, wc_eq. exact Ew.
Qed.
(** The positions a word of the document counts with. *)
Definition entry_positions (ps : option (list N)) : list N := match ps with Some (p :: r) => p :: r | _ => [0%N] end.
Lemma entryOccs_in alloc ops l : forall cur x, In x (entryOccs alloc ops cur l) -> exists w ps p a, In (w, ps) l /\ In p (entry_positions ps) /\ x = mkDocr ops a (WEP_GETWEIGHT p) (Z.of_N (WEP_GETPOS p)).
Proof.
  induction l as [|[w ps] l IH]; intros cur x H; [destruct H|]. cbn [entryOccs] in H. apply in_app_iff in H as [H|H].
  - apply in_map_iff in H as (p & <- & Hp). exists w, ps, p, (alloc cur). split; [left; reflexivity|]. split; [exact Hp|reflexivity].
  - destruct (IH _ _ H) as (w' & ps' & p & a & H1 & H2 & H3). exists w', ps', p, a. split; [right; exact H1|auto].
Qed.
Lemma entryOccs_has alloc ops l w ps p : In (w, ps) l -> In p (entry_positions ps) -> forall cur, exists a, In (mkDocr ops a (WEP_GETWEIGHT p) (Z.of_N (WEP_GETPOS p))) (entryOccs alloc ops cur l).
Proof.
  intros H Hp. induction l as [|[w' ps'] l IH]; intro cur; [destruct H|]. cbn [entryOccs]. destruct H as [E|H].
  - injection E as -> ->. exists (alloc cur). apply in_or_app. left. apply in_map_iff. exists p. split; [reflexivity|exact Hp].
  - destruct (IH H (cur + length (entry_positions ps'))%nat) as (a & Ha). exists a. apply in_or_app. right. exact Ha.
Qed.
Lemma entry_positions_some ps : exists p, In p (entry_positions ps).
Proof. destruct ps as [[|p r]|]; [exists 0%N|exists p|exists 0%N]; left; reflexivity. Qed.
Section Docrep.
  Variables (alloc : nat -> Z) (its : list (option operand)) (d : document) (Hd : words_ascend d).
  Lemma docrep_in l : forall exist cur i x, In x (docrep alloc its d exist cur i l) ->
    exists o w ps p a, In (Some o) l /\ In (w, ps) d /\ asks_for o w /\ In p (entry_positions ps) /\ x = mkDocr (sameItems its o) a (WEP_GETWEIGHT p) (Z.of_N (WEP_GETPOS p)).
  Proof.
    induction l as [|[o|] l IH]; intros exist cur i x H; cbn [docrep] in H; [destruct H| |].
    - assert (G : forall ex c, In x (docrep alloc its d ex c (S i) l) -> exists o0 w ps p a, In (Some o0) (Some o :: l) /\ In (w, ps) d /\ asks_for o0 w /\ In p (entry_positions ps) /\ x = mkDocr (sameItems its o0) a (WEP_GETWEIGHT p) (Z.of_N (WEP_GETPOS p))).
      { intros ex c Hx. destruct (IH _ _ _ _ Hx) as (o0 & w & ps & p & a & H1 & H2). exists o0, w, ps, p, a. split; [right; exact H1|exact H2]. }
      destruct (exist i); [eauto|]. pose proof (find_spec d Hd o) as Hf. destruct (find_wordentry d o) as [[f n]|]; [|eauto]. destruct Hf as [_ Hf].
      apply in_app_iff in H as [H|H]; [|eauto]. apply entryOccs_in in H as (w & ps & p & a & H1 & H2 & ->). apply Hf in H1 as [H1 H1']. exists o, w, ps, p, a. split; [left; reflexivity|auto].
    - destruct (IH _ _ _ _ H) as (o0 & w & ps & p & a & H1 & H2). exists o0, w, ps, p, a. split; [right; exact H1|exact H2].
  Qed.
  Lemma docrep_has l : forall exist cur i j o w ps, (forall k x, nth_error l k = Some x -> nth_error its (i + k) = Some x) -> (i <= j)%nat -> nth_error l (j - i) = Some (Some o) -> exist j = false ->
    (forall k o', nth_error its k = Some (Some o') -> o_word o' = o_word o -> alike o o') -> In (w, ps) d -> asks_for o w ->
    forall p, In p (entry_positions ps) -> exists a, In (mkDocr (sameItems its o) a (WEP_GETWEIGHT p) (Z.of_N (WEP_GETPOS p))) (docrep alloc its d exist cur i l).
  Proof.
    induction l as [|x l IH]; intros exist cur i j o w ps Hi Hj Hl He Hal Hin Ha p Hp; [destruct (j - i)%nat; discriminate|].
    assert (Hi' : forall k y, nth_error l k = Some y -> nth_error its (S i + k) = Some y) by (intros k y Hk; replace (S i + k)%nat with (i + S k)%nat by lia; apply Hi; exact Hk).
    assert (Hsame : forall o0, o_word o0 = o_word o -> sameItems its o0 = sameItems its o) by (intros o0 E; unfold sameItems, sameWord; rewrite E; reflexivity).
    destruct (Nat.eq_dec j i) as [->|Hn].
    - rewrite Nat.sub_diag in Hl. cbn [nth_error] in Hl. injection Hl as ->. cbn [docrep]. rewrite He. pose proof (find_spec d Hd o) as Hf. destruct (find_wordentry d o) as [[f n]|]; [|destruct (Hf _ Hin Ha)]. destruct Hf as [_ Hf].
      destruct (entryOccs_has alloc (sameItems its o) (firstn n (skipn f d)) w ps p (proj2 (Hf _) (conj Hin Ha)) Hp cur) as (a & Hx). exists a. apply in_or_app. left. exact Hx.
    - assert (Hl' : nth_error l (j - S i) = Some (Some o)) by (replace (j - i)%nat with (S (j - S i)) in Hl by lia; exact Hl).
      assert (G : forall ex c, ex j = false -> exists a, In (mkDocr (sameItems its o) a (WEP_GETWEIGHT p) (Z.of_N (WEP_GETPOS p))) (docrep alloc its d ex c (S i) l)) by (intros ex c Hex; apply (IH ex c (S i) j o w ps); auto; lia).
      cbn [docrep]. destruct x as [o0|]; [|auto]. destruct (exist i); [auto|]. pose proof (find_spec d Hd o0) as Hf. destruct (find_wordentry d o0) as [[f n]|]; [|auto]. destruct Hf as [_ Hf].
      destruct (existsb (Nat.eqb j) (sameItems its o0)) eqn:Es.
      + apply existsb_eqb, sameItems_in in Es as (o1 & E1 & E2). assert (Ho1 : o1 = o). { pose proof (Hi _ _ Hl) as E3. replace (i + (j - i))%nat with j in E3 by lia. congruence. } subst o1.
        assert (Hal0 : alike o o0) by (apply (Hal i); [specialize (Hi 0%nat _ eq_refl); rewrite Nat.add_0_r in Hi; exact Hi|auto]).
        destruct (entryOccs_has alloc (sameItems its o0) (firstn n (skipn f d)) w ps p) with (cur := cur) as (a & Hx); [apply Hf; split; [exact Hin|apply (alike_asks o o0 w Hal0); exact Ha]|exact Hp|].
        exists a. apply in_or_app. left. rewrite <- (Hsame o0 (proj1 Hal0)). exact Hx.
      + destruct (G (fun k => existsb (Nat.eqb k) (sameItems its o0) || exist k) (cur + length (entryOccs alloc (sameItems its o0) cur (firstn n (skipn f d))))%nat) as (a & Hx); [rewrite Es; exact He|]. exists a. apply in_or_app. right. exact Hx.
  Qed.
End Docrep.

(** ** Queries on words and on items *)
Lemma said_items W P q : no_phrase q -> forall i, placed (fun k o => P k <-> exists w, W w /\ asks_for o w) i q -> (items_said P i q <-> said W q).
Proof.
  induction q as [o|a IH|l IHl r IHr|l IHl r IHr|n l IHl r IHr]; intros Hn i H; cbn [items_said said placed no_phrase] in *; [exact H|rewrite (IH Hn _ H); reflexivity| | |destruct Hn];
    destruct Hn as [Hn1 Hn2]; destruct H as [H1 H2]; rewrite (IHl Hn1 _ H2), (IHr Hn2 _ H1); reflexivity.
Qed.
Lemma absent_all_off W (P : nat -> bool) q : forall i, placed (fun k o => P k = true <-> exists w, W w /\ asks_for o w) i q -> (forall o, in_query o q -> ~ exists w, W w /\ asks_for o w) -> all_off P i q.
Proof.
  induction q as [o|a IH|l IHl r IHr|l IHl r IHr|n l IHl r IHr]; intros i H Ha; cbn [all_off placed in_query] in *.
  - destruct (P i) eqn:E; [|reflexivity]. destruct (Ha o eq_refl). apply H. reflexivity.
  - apply IH; auto.
  - split; [apply IHl|apply IHr]; auto; apply H.
  - split; [apply IHl|apply IHr]; auto; apply H.
  - split; [apply IHl|apply IHr]; auto; apply H.
Qed.
Lemma absent_neg_off W (P : nat -> bool) q : forall i, placed (fun k o => P k = true <-> exists w, W w /\ asks_for o w) i q -> negated_absent W q -> neg_off P i q.
Proof.
  induction q as [o|a IH|l IHl r IHr|l IHl r IHr|n l IHl r IHr]; intros i H Ha; cbn [neg_off placed negated_absent] in *; auto.
  - destruct Ha as [H1 H2]. split; [exact H1|]. exact (absent_all_off W P a (S i) H H2).
  - split; [apply IHl|apply IHr]; auto; apply H || apply Ha.
  - split; [apply IHl|apply IHr]; auto; apply H || apply Ha.
  - split; [apply IHl|apply IHr]; auto; apply H || apply Ha.
Qed.

(** A list of occurrences that stands for a set of words. *)
Section Stands.
  Variables (keyed : bool) (slot : nat -> nat) (q : tsq) (Hq : no_phrase q) (W : list N -> Prop) (doc : list docr).
  Variable (Hs : StronglySorted (fun x y => d_pos x <= d_pos y) doc) (Hp : Forall (fun x => 1 <= d_pos x) doc).
  Variable (Hst : placed (fun k o => marked doc (slot k) = true <-> exists w, W w /\ asks_for o w) 0 q).
  Variable (Hneg : negated_absent W q).
  Lemma stands_agree : agree slot q doc.
  Proof. apply neg_off_windows. apply (absent_neg_off W); assumption. Qed.
  Lemma stands_covers : covers keyed slot q doc <> [] <-> said W q /\ doc <> [].
  Proof.
    rewrite (covers_some keyed slot q Hq doc Hs Hp stands_agree). rewrite <- (said_items W (fun k => marked doc (slot k) = true) q Hq 0 Hst). rewrite <- (evalb_said (fun k => marked doc (slot k)) _ q Hq (fun i => iff_refl _) 0).
    assert (Ew : win doc 0 (pred (length doc)) = doc) by (unfold win; cbn [skipn]; apply firstn_all2; lia). split.
    - intros (b & e & Hbe & Hw). split; [|intro E; rewrite E in Hbe; cbn in Hbe; lia]. apply (win_holds slot q Hq) in Hw. apply evalb_skip in Hw.
      pose proof (win_mono slot q doc 0 (pred (length doc)) b e ltac:(lia) ltac:(lia) Hw) as H. apply stands_agree in H. rewrite Ew in H. exact H.
    - intros [H1 H2]. assert (length doc <> 0)%nat by (destruct doc; [congruence|discriminate]). exists 0%nat, (pred (length doc)). split; [lia|]. apply (win_holds slot q Hq). rewrite Ew. exact H1.
  Qed.
End Stands.

Lemma valid_position d w l p : valid_doc d -> In (w, Some l) d -> In p l -> 1 <= Z.of_N (WEP_GETPOS p).
Proof.
  intros [_ Hv] H Hp. destruct (Hv _ _ H) as (_ & _ & F). rewrite Forall_forall in F. specialize (F p Hp). pose proof (posat_position p) as E. unfold posat in E. rewrite Z.add_0_r in E. rewrite E. lia.
Qed.
Section Operator.
  Variables (qsortD : list docr -> list docr) (Hsort : sorts_docr qsortD).
  Variables (alloc : nat -> Z) (d : document) (q : tsq).
  Variables (Hv : valid_doc d) (Hd : words_ascend d) (Hq : no_phrase q) (Hm : modes_agree q) (Hpos : positioned d q).
  Definition odoc : list docr := docrep alloc (items q) d (fun _ => false) 0 0 (items q).
  Lemma odoc_positions : Forall (fun x => 1 <= d_pos x) odoc.
  Proof.
    rewrite Forall_forall. intros x Hx. apply (docrep_in alloc (items q) d Hd) in Hx as (o & w & ps & p & a & H1 & H2 & H3 & H4 & ->). cbn [d_pos].
    apply in_items in H1. destruct ps as [l|]; [|exfalso; apply (Hpos o H1); exists w; auto]. destruct Hv as [_ Hv']. destruct (Hv' _ _ H2) as (_ & Hne & _). destruct l as [|p0 l]; [congruence|]. exact (valid_position d w _ p Hv H2 H4).
  Qed.
  Lemma odoc_marked : placed (fun k o => marked (qsortD odoc) k = true <-> exists w, word_of d w /\ asks_for o w) 0 q.
  Proof.
    apply placed_items. intros k o Hk. cbn [Nat.add]. rewrite (marked_perm _ odoc) by (apply Permutation_sym, Hsort). split.
    - intro H. unfold marked in H. rewrite existsb_exists in H. destruct H as (x & Hx & Hj). apply existsb_eqb in Hj.
      apply (docrep_in alloc (items q) d Hd) in Hx as (o' & w & ps & p & a & H1 & H2 & H3 & H4 & ->). cbn [d_ops] in Hj. apply sameItems_in in Hj as (o1 & E1 & E2). rewrite Hk in E1. injection E1 as <-.
      exists w. split; [exists ps; exact H2|]. apply (alike_asks o' o); [|exact H3]. split; [exact E2|]. apply Hm; [apply in_items; exact (nth_error_In _ _ Hk)|apply in_items; exact H1|exact E2].
    - intros (w & (ps & Hin) & Ha). destruct (entry_positions_some ps) as (p & Hp). destruct (docrep_has alloc (items q) d Hd (items q) (fun _ => false) 0%nat 0%nat k o w ps) with (p := p) as (a & Hx); auto; try lia.
      + rewrite Nat.sub_0_r. exact Hk.
      + intros j o' Hj Ew. split; [exact Ew|]. apply Hm; [apply in_items; exact (nth_error_In _ _ Hj)|apply in_items; exact (nth_error_In _ _ Hk)|exact Ew].
      + unfold marked. apply existsb_exists. eexists. split; [exact Hx|]. cbn [d_ops]. apply existsb_eqb, sameItems_in. exists o. auto.
  Qed.
  Lemma odoc_some : odoc <> [] <-> exists o w, in_query o q /\ word_of d w /\ asks_for o w.
  Proof.
    split.
    - intro H. destruct odoc as [|x l] eqn:E; [congruence|]. assert (Hx : In x odoc) by (rewrite E; left; reflexivity). apply (docrep_in alloc (items q) d Hd) in Hx as (o & w & ps & p & a & H1 & H2 & H3 & _). exists o, w. split; [apply in_items; exact H1|]. split; [exists ps; exact H2|exact H3].
    - intros (o & w & Ho & (ps & Hin) & Ha) E. apply in_items in Ho. apply In_nth_error in Ho as (k & Hk). destruct (entry_positions_some ps) as (p & Hp). destruct (docrep_has alloc (items q) d Hd (items q) (fun _ => false) 0%nat 0%nat k o w ps) with (p := p) as (a & Hx); auto; try lia.
      + rewrite Nat.sub_0_r. exact Hk.
      + intros j o' Hj Ew. split; [exact Ew|]. apply Hm; [apply in_items; exact (nth_error_In _ _ Hj)|apply in_items; exact (nth_error_In _ _ Hk)|exact Ew].
      + fold odoc in Hx. rewrite E in Hx. destruct Hx.
  Qed.
  Lemma perm_nonempty : qsortD odoc <> [] <-> odoc <> [].
  Proof. destruct (Hsort odoc) as [H _]. split; intros Hn E; apply Hn; rewrite E in H; [rewrite E; apply Permutation_nil in H; exact H|apply Permutation_sym, Permutation_nil in H; exact H]. Qed.
  Theorem operator_covers : negated_absent (word_of d) q ->
    (covers false (fun i => i) q (qsortD odoc) <> [] <-> said (word_of d) q /\ exists o w, in_query o q /\ word_of d w /\ asks_for o w).
  Proof.
    intro Hn. rewrite (stands_covers false (fun i => i) q Hq (word_of d) (qsortD odoc)); auto.
    - rewrite perm_nonempty, odoc_some. reflexivity.
    - apply Hsort.
    - apply (Permutation_Forall (proj1 (Hsort odoc))). exact odoc_positions.
    - exact odoc_marked.
  Qed.
End Operator.

(** ** get_docrep_addinfo *)
Section Addinfo.
  Variables (itemAddr : nat -> Z) (m : list nat) (add : list (option (list byte))).
  Lemma addinfo_in l : forall check i x, In x (docrepAddinfo itemAddr m add check i l) ->
    exists k o bs p, nth_error l k = Some (Some o) /\ check (nth (i + k) m O) = true /\ nth (nth (i + k) m O) add None = Some bs /\ In p (decoded bs) /\ x = mkDocr [nth (i + k) m O] (itemAddr (i + k)%nat) (WEP_GETWEIGHT p) (Z.of_N (WEP_GETPOS p)).
  Proof.
    induction l as [|[o|] l IH]; intros check i x H; cbn [docrepAddinfo] in H; [destruct H| |].
    - assert (G : forall ck, (forall j, ck j = true -> check j = true) -> In x (docrepAddinfo itemAddr m add ck (S i) l) -> exists k o0 bs p, nth_error (Some o :: l) k = Some (Some o0) /\ check (nth (i + k) m O) = true /\ nth (nth (i + k) m O) add None = Some bs /\ In p (decoded bs) /\ x = mkDocr [nth (i + k) m O] (itemAddr (i + k)%nat) (WEP_GETWEIGHT p) (Z.of_N (WEP_GETPOS p))).
      { intros ck Hck Hx. destruct (IH _ _ _ Hx) as (k & o0 & bs & p & H1 & H2 & H3). exists (S k), o0, bs, p. replace (i + S k)%nat with (S i + k)%nat by lia. split; [exact H1|]. split; [apply Hck; exact H2|exact H3]. }
      destruct (check (nth i m O)) eqn:Ec; cbn [negb] in H; [|exact (G check (fun j h => h) H)].
      assert (Hck : forall j, (if Nat.eqb j (nth i m O) then false else check j) = true -> check j = true) by (intros j Hj; destruct (Nat.eqb j (nth i m O)); [discriminate|exact Hj]).
      destruct (nth (nth i m O) add None) as [bs|] eqn:Ea; [|exact (G _ Hck H)]. apply in_app_iff in H as [H|H]; [|exact (G _ Hck H)].
      apply in_map_iff in H as (p & <- & Hp). exists 0%nat, o, bs, p. rewrite Nat.add_0_r. auto.
    - destruct (IH _ _ _ H) as (k & o0 & bs & p & H1 & H2 & H3). exists (S k), o0, bs, p. replace (i + S k)%nat with (S i + k)%nat by lia. auto.
  Qed.
  Lemma addinfo_has l : forall check i k o bs p, nth_error l k = Some (Some o) -> check (nth (i + k) m O) = true -> nth (nth (i + k) m O) add None = Some bs -> In p (decoded bs) ->
    exists a, In (mkDocr [nth (i + k) m O] a (WEP_GETWEIGHT p) (Z.of_N (WEP_GETPOS p))) (docrepAddinfo itemAddr m add check i l).
  Proof.
    induction l as [|x l IH]; intros check i k o bs p H1 H2 H3 H4; [destruct k; discriminate|]. destruct k as [|k].
    - rewrite Nat.add_0_r in *. cbn [nth_error] in H1. injection H1 as ->. cbn [docrepAddinfo]. rewrite H2, H3. cbn [negb]. exists (itemAddr i). apply in_or_app. left. apply in_map_iff. exists p. auto.
    - replace (i + S k)%nat with (S i + k)%nat in * by lia. cbn [nth_error] in H1. cbn [docrepAddinfo]. destruct x as [o0|]; [|exact (IH check (S i) k o bs p H1 H2 H3 H4)].
      destruct (check (nth i m O)) eqn:Ec; cbn [negb]; [|exact (IH check (S i) k o bs p H1 H2 H3 H4)]. destruct (Nat.eqb_spec (nth (S i + k) m O) (nth i m O)) as [E|E].
      + rewrite E in *. rewrite H3. exists (itemAddr i). apply in_or_app. left. apply in_map_iff. exists p. auto.
      + destruct (IH (fun j => if Nat.eqb j (nth i m O) then false else check j) (S i) k o bs p H1) as (a & Ha); auto; [destruct (Nat.eqb_spec (nth (S i + k) m O) (nth i m O)); [contradiction|exact H2]|].
        exists a. destruct (nth (nth i m O) add None) as [bs0|]; [apply in_or_app; right|]; exact Ha.
  Qed.
End Addinfo.
Section Index.
  Variables (qsortD : list docr -> list docr) (Hsort : sorts_docr qsortD).
  Variables (itemAddr : nat -> Z) (m : list nat) (check : list bool) (add : list (option (list byte))) (d : document) (q : tsq).
  Variables (Hq : no_phrase q) (Hpos : positioned d q).
  Variable (Hrep : forall k o, nth_error (items q) k = Some (Some o) -> reports d o (nth (nth k m O) check false) (nth (nth k m O) add None)).
  Definition idoc : list docr := docrepAddinfo itemAddr m add (fun j => nth j check false) 0 (items q).
  Lemma read_all k o bs : nth_error (items q) k = Some (Some o) -> nth (nth k m O) check false = true -> nth (nth k m O) add None = Some bs ->
    decoded bs <> [] /\ Forall (fun p => (1 <= position p)%N) (decoded bs).
  Proof.
    intros Hk Hc Ha. destruct (Hrep k o Hk) as [_ H]. destruct (H Hc) as [_ H']. destruct (H' bs Ha) as (l & E & H1 & H2 & _). unfold decoded. rewrite E. auto.
  Qed.
  Lemma idoc_positions : Forall (fun x => 1 <= d_pos x) idoc.
  Proof.
    rewrite Forall_forall. intros x Hx. apply addinfo_in in Hx as (k & o & bs & p & H1 & H2 & H3 & H4 & ->). cbn [Nat.add d_pos] in *. destruct (read_all k o bs H1 H2 H3) as [_ F]. rewrite Forall_forall in F. specialize (F p H4).
    pose proof (posat_position p) as E. unfold posat in E. rewrite Z.add_0_r in E. rewrite E. lia.
  Qed.
  Lemma present_positions k o : nth_error (items q) k = Some (Some o) -> (exists w, word_of d w /\ asks_for o w) -> exists bs p, nth (nth k m O) check false = true /\ nth (nth k m O) add None = Some bs /\ In p (decoded bs).
  Proof.
    intros Hk (w & (ps & Hin) & Ha). destruct (Hrep k o Hk) as [H1 H2]. assert (Hc : nth (nth k m O) check false = true) by (apply H1; exists w, ps; auto). destruct (H2 Hc) as [Hn _].
    destruct (nth (nth k m O) add None) as [bs|] eqn:Ea; [|destruct (Hpos o); [apply in_items; exact (nth_error_In _ _ Hk)|apply Hn; reflexivity]].
    destruct (read_all k o bs Hk Hc Ea) as [Hne _]. destruct (decoded bs) as [|p r] eqn:Ed; [congruence|]. exists bs, p. split; [exact Hc|]. split; [reflexivity|]. rewrite Ed. left. reflexivity.
  Qed.
  Lemma idoc_marked : placed (fun k o => marked (qsortD idoc) (nth k m O) = true <-> exists w, word_of d w /\ asks_for o w) 0 q.
  Proof.
    apply placed_items. intros k o Hk. cbn [Nat.add]. rewrite (marked_perm _ idoc) by (apply Permutation_sym, Hsort). destruct (Hrep k o Hk) as [Hpr _]. split.
    - intro H. unfold marked in H. rewrite existsb_exists in H. destruct H as (x & Hx & Hj). apply existsb_eqb in Hj. apply addinfo_in in Hx as (k' & o' & bs & p & H1 & H2 & H3 & H4 & ->). cbn [Nat.add d_ops] in *. destruct Hj as [Ej|[]].
      rewrite Ej in H2. apply Hpr in H2 as (w & ps & H5 & H6). exists w. split; [exists ps; exact H5|exact H6].
    - intro H. destruct (present_positions k o Hk H) as (bs & p & H1 & H2 & H3). destruct (addinfo_has itemAddr m add (items q) (fun j => nth j check false) 0%nat k o bs p Hk H1 H2 H3) as (a & Hx).
      unfold marked. apply existsb_exists. eexists. split; [exact Hx|]. cbn [d_ops Nat.add]. apply existsb_eqb. left. reflexivity.
  Qed.
  Lemma idoc_some : qsortD idoc <> [] <-> exists o w, in_query o q /\ word_of d w /\ asks_for o w.
  Proof.
    assert (E : qsortD idoc <> [] <-> idoc <> []).
    { destruct (Hsort idoc) as [H _]. split; intros Hn E; apply Hn; rewrite E in H; [rewrite E; apply Permutation_nil in H; exact H|apply Permutation_sym, Permutation_nil in H; exact H]. }
    rewrite E. clear E. split.
    - intro H. destruct idoc as [|x l] eqn:E; [congruence|]. assert (Hx : In x idoc) by (rewrite E; left; reflexivity). apply addinfo_in in Hx as (k & o & bs & p & H1 & H2 & _). cbn [Nat.add] in *. destruct (Hrep k o H1) as [Hpr _]. apply Hpr in H2 as (w & ps & H5 & H6).
      exists o, w. split; [apply in_items; exact (nth_error_In _ _ H1)|]. split; [exists ps; exact H5|exact H6].
    - intros (o & w & Ho & Hw & Ha) E. apply in_items in Ho. apply In_nth_error in Ho as (k & Hk). destruct (present_positions k o Hk ltac:(exists w; auto)) as (bs & p & H1 & H2 & H3).
      destruct (addinfo_has itemAddr m add (items q) (fun j => nth j check false) 0%nat k o bs p Hk H1 H2 H3) as (a & Hx). fold idoc in Hx. rewrite E in Hx. destruct Hx.
  Qed.
  Theorem index_covers : negated_absent (word_of d) q ->
    (covers true (fun i => nth i m O) q (qsortD idoc) <> [] <-> said (word_of d) q /\ exists o w, in_query o q /\ word_of d w /\ asks_for o w).
  Proof.
    intro Hn. rewrite (stands_covers true (fun i => nth i m O) q Hq (word_of d) (qsortD idoc)); auto.
    - rewrite idoc_some. reflexivity.
    - apply Hsort.
    - apply (Permutation_Forall (proj1 (Hsort idoc))). exact idoc_positions.
    - exact idoc_marked.
  Qed.
End Index.
