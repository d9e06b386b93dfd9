(** Proofs: full-text search in a whole index (C49). *)
From Coq Require Import NArith ZArith Lia List Permutation Sorted Bool Arith.
From Verif Require Import VacTreeSpec VacIndex VacScanSpec LifeSpec LifeProof LifeQuery Base Ord OrdProof Codec PosCodec PosSpec PosProof Tsq TsqSpec TsqProof TsqPhrase TsqExec TsqExtract PropTsqProof Entries EntriesSpec EntriesProof Bulk BulkSpec EntryTree IndexSpec ScanEntry Scan TidBitmap IndexScan QuerySpec EntryFound IndexScanProof
  Array ArrayQuery InvertedQuery TextSearch TextSpec.
Import ListNotations.
Local Open Scope Z_scope.

(** ** Words *)
Lemma is_prefix_spec a : forall b, is_prefix a b = true <-> exists rest, b = a ++ rest.
Proof.
  induction a as [|x a IH]; intros [|y b]; cbn [is_prefix app].
  - split; [exists []; reflexivity|reflexivity].
  - split; [eexists; reflexivity|reflexivity].
  - split; [discriminate|intros (r & E); discriminate].
  - rewrite andb_true_iff, N.eqb_eq, IH. split; [intros (-> & r & ->); exists r; reflexivity|intros (r & E); injection E as -> ->; split; [reflexivity|exists r; reflexivity]].
Qed.
Lemma cmp_prefix_0 a b : gin_cmp_prefix a b = 0 <-> exists rest, b = a ++ rest.
Proof. unfold gin_cmp_prefix. rewrite <- is_prefix_spec. destruct (is_prefix a b); split; intro H; try reflexivity; discriminate. Qed.
Lemma cmp_prefix_pos a b : 0 < gin_cmp_prefix a b <-> is_prefix a b = false.
Proof. unfold gin_cmp_prefix. destruct (is_prefix a b); split; intro H; try reflexivity; try lia; discriminate. Qed.
Lemma prefix_le a b : is_prefix a b = true -> word_compare a b <= 0.
Proof.
  revert b. induction a as [|x a IH]; intros [|y b]; cbn; try lia; try discriminate. intro H. apply andb_true_iff in H as [H1 H2]. rewrite H1. auto.
Qed.
Lemma prefix_stop a : forall k k', word_compare a k <= 0 -> word_compare k k' <= 0 -> is_prefix a k = false -> is_prefix a k' = false.
Proof.
  induction a as [|x a IH]; intros k k' H1 H2 H3; [discriminate|]. destruct k' as [|z k']; [reflexivity|]. destruct k as [|y k]; [cbn in H1; lia|].
  cbn [is_prefix word_compare] in *. destruct (N.eqb_spec x y) as [E|E]; cbn [andb] in *.
  - subst y. destruct (N.eqb_spec x z) as [E'|E']; [|reflexivity]. cbn [andb]. eapply IH; eassumption.
  - destruct (N.ltb_spec x y); [|lia]. destruct (N.eqb_spec x z) as [E'|E']; [|reflexivity]. cbn [andb]. subst z. destruct (N.eqb_spec y x) as [E2|E2]; [congruence|]. destruct (N.ltb_spec y x); lia.
Qed.

(** ** The match function on rows without the query's words, and the pre-filter *)
Lemma phrase_needs chk fl : (forall i o b, fst (chk i o b) = TNo) -> forall q i, requires_match q = true -> fst (rum_phrase_execute chk fl i q) = TNo.
Proof.
  intros H. induction q as [o|q IH|l IHl r IHr|l IHl r IHr|n l IHl r IHr]; intros i E; cbn [requires_match rum_phrase_execute] in *; try discriminate.
  - apply H.
  - destruct (requires_match l) eqn:El.
    + specialize (IHl (S i + qsize r)%nat eq_refl). destruct (rum_phrase_execute chk fl (S i + qsize r) l) as [t L]. cbn in IHl. subst t. reflexivity.
    + specialize (IHr (S i) E). destruct (rum_phrase_execute chk fl (S i + qsize r) l) as [t L]. destruct (rum_phrase_execute chk fl (S i) r) as [t' R]. cbn in IHr. subst t'. destruct t; reflexivity.
  - apply andb_true_iff in E as [El Er]. specialize (IHl (S i + qsize r)%nat El). specialize (IHr (S i) Er).
    destruct (rum_phrase_execute chk fl (S i + qsize r) l) as [t L]. destruct (rum_phrase_execute chk fl (S i) r) as [t' R]. cbn in IHl, IHr. subst. reflexivity.
  - destruct (requires_match l) eqn:El.
    + specialize (IHl (S i + qsize r)%nat eq_refl). destruct (rum_phrase_execute chk fl (S i + qsize r) l) as [t L]. cbn in IHl. subst t. reflexivity.
    + specialize (IHr (S i) E). destruct (rum_phrase_execute chk fl (S i + qsize r) l) as [t L]. destruct (rum_phrase_execute chk fl (S i) r) as [t' R]. cbn in IHr. subst t'. destruct t; reflexivity.
Qed.
Lemma execute_needs chk fl : f_in_neg fl = false -> (forall i o b, fst (chk i o b) = TNo) -> forall q i, requires_match q = true -> rum_TS_execute chk fl i q = TNo.
Proof.
  intros Hf H. induction q as [o|q IH|l IHl r IHr|l IHl r IHr|n l IHl r IHr]; intros i E; cbn [requires_match rum_TS_execute] in *; try discriminate.
  - rewrite Hf. cbn [andb]. apply H.
  - destruct (requires_match l) eqn:El.
    + rewrite (IHl (S i + qsize r)%nat eq_refl). reflexivity.
    + rewrite (IHr (S i) E). destruct (rum_TS_execute chk fl (S i + qsize r) l); reflexivity.
  - apply andb_true_iff in E as [El Er]. rewrite (IHl _ El), (IHr _ Er). reflexivity.
  - rewrite (phrase_needs chk fl H (QPhrase n l r) i E). reflexivity.
Qed.
(** What the pre-filter refuses the match function refuses. *)
Lemma pre_refuses m T cv fl : f_in_neg fl = false -> cv_map cv = m -> (forall j, nth j T false = false -> nth j (cv_check cv) false = false) ->
  forall q need i, fst (pg_TS_execute (pre_checkcondition_rum m T) need i q) = TNo -> rum_TS_execute (checkcondition_rum cv) fl i q = TNo.
Proof.
  intros Hf Hm HT. induction q as [o|q IH|l IHl r IHr|l IHl r IHr|n l IHl r IHr]; intros need i E; cbn [pg_TS_execute rum_TS_execute] in *.
  - rewrite Hf. cbn [andb]. unfold pre_checkcondition_rum in E. cbn [fst] in E. unfold checkcondition_rum. rewrite Hm. destruct (need || negb (o_weight o =? 0)%N || false); [discriminate|].
    destruct (nth (nth i m 0%nat) T false) eqn:En; [discriminate|]. rewrite (HT _ En). reflexivity.
  - discriminate.
  - destruct (pg_TS_execute (pre_checkcondition_rum m T) need (S i + qsize r) l) as [lm nd] eqn:El. specialize (IHl need (S i + qsize r)%nat). rewrite El in IHl. cbn [fst] in IHl. destruct lm.
    + rewrite IHl by reflexivity. reflexivity.
    + destruct (pg_TS_execute (pre_checkcondition_rum m T) nd (S i) r) as [rm nd'] eqn:Er. specialize (IHr nd (S i)). rewrite Er in IHr. cbn [fst] in *. destruct rm; try discriminate. rewrite IHr by reflexivity. destruct (rum_TS_execute _ _ (S i + qsize r) l); reflexivity.
    + destruct (pg_TS_execute (pre_checkcondition_rum m T) nd (S i) r) as [rm nd'] eqn:Er. specialize (IHr nd (S i)). rewrite Er in IHr. cbn [fst] in *. destruct rm; try discriminate. rewrite IHr by reflexivity. destruct (rum_TS_execute _ _ (S i + qsize r) l); reflexivity.
  - destruct (pg_TS_execute (pre_checkcondition_rum m T) need (S i + qsize r) l) as [lm nd] eqn:El. specialize (IHl need (S i + qsize r)%nat). rewrite El in IHl. cbn [fst] in IHl. destruct lm; try discriminate.
    + destruct (pg_TS_execute (pre_checkcondition_rum m T) nd (S i) r) as [rm nd'] eqn:Er. specialize (IHr nd (S i)). rewrite Er in IHr. cbn [fst] in *. destruct rm; try discriminate. rewrite IHl, IHr by reflexivity. reflexivity.
    + destruct (pg_TS_execute (pre_checkcondition_rum m T) nd (S i) r) as [rm nd'] eqn:Er. cbn [fst] in *. destruct rm; discriminate.
  - exfalso. exact (pre_phrase m T (QPhrase n l r) need i E).
Qed.

(** ** Joined values *)
Definition vald (o : option (list byte)) : option datum := option_map (DVar V4U) o.
Definition stored_pos (o : option (list byte)) : Prop := o = None \/ exists l, pos_list l /\ l <> [] /\ o = Some (compress_pos l).
Lemma jmerge_pos l1 l2 : pos_list l1 -> pos_list l2 -> l1 <> [] -> l2 <> [] -> pos_list (jmerge l1 l2) /\ jmerge l1 l2 <> [].
Proof.
  intros H1 H2 N1 N2. assert (S1 := proj1 (ssorted_pos _) (proj2 H1)). assert (S2 := proj1 (ssorted_pos _) (proj2 H2)).
  assert (Pj : pos_list (jmerge l1 l2)).
  { split; [|apply ssorted_pos; apply merge_sorted; [apply pcmp_total|assumption|assumption]]. apply Forall_forall. intros p Hp. apply merge_incl in Hp.
    destruct H1 as [H1 _], H2 as [H2 _]. rewrite Forall_forall in H1, H2. destruct Hp; auto. }
  split; [exact Pj|]. destruct (join_spec l1 l2 H1 H2 N1 N2) as (bs & l' & E & R & _ & _ & Hin). rewrite (join_merge l1 l2 H1 H2 N1 N2) in E. injection E as <-.
  destruct (pos_roundtrip _ Pj) as (R' & _). rewrite R in R'. injection R' as ->. destruct l1 as [|p l]; [congruence|]. intro Hn. assert (Hi : In p (jmerge (p :: l) l2)) by (apply Hin; left; left; reflexivity). rewrite Hn in Hi. destruct Hi.
Qed.
Lemma join_fold t : forall a, stored_pos a -> Forall stored_pos t ->
  exists z, join_all a t = Some z /\ fold_left (joinAdd (Some joinDatum)) (map vald t) (vald a) = vald z.
Proof.
  induction t as [|b t IH]; intros a Ha Ht; [exists a; split; reflexivity|]. inversion Ht as [|? ? Hb Ht']; subst. cbn [join_all map fold_left].
  destruct Ha as [->|(l & P1 & N1 & ->)]; [cbn [join_add]; apply (IH b Hb Ht')|].
  destruct Hb as [->|(l' & P2 & N2 & ->)]; [cbn [join_add]; apply (IH (Some (compress_pos l))); [right; eauto|exact Ht']|].
  cbn [join_add]. rewrite (join_merge l l' P1 P2 N1 N2). destruct (jmerge_pos l l' P1 P2 N1 N2) as [Pj Nj].
  destruct (IH (Some (compress_pos (jmerge l l')))) as (z & E1 & E2); [right; eauto|exact Ht'|]. exists z. split; [exact E1|]. rewrite <- E2. f_equal. unfold vald, joinAdd, option_map, joinDatum. rewrite (join_merge l l' P1 P2 N1 N2). reflexivity.
Qed.

(** ** One column *)
Section Column.
  Context {K : Type}.
  Variable compareFn : N -> K -> K -> Z.
  Hypothesis HK : forall n, total_cmp (compareFn n).
  Variables (build : list N -> K) (dflt : K) (addTo : N) (table : list (@hrow K datum)).
  Variables (att : N) (doc : @hrow K datum -> option document).
  Hypothesis HC : text_column compareFn build dflt table att doc.
  Notation keyed d := (rum_extract_tsvector_internal (fun w => w) d).
  (** The pair the index gets for a word. *)
  Definition pairOf (r : @hrow K datum) (e : list N * option (list byte)) : ekey K * item datum :=
    (mkKey att (build (fst e)) CatNormKey, mkItem (r_tid r) (if (att =? addTo)%N then r_attach r else vald (snd e))).

  Lemma col_rows r : In r table -> exists qs hd, sorts (compareFn att) qs hd /\
    col addTo att r = map (fun '(k, c, a) => (mkKey att k c, mkItem (r_tid r) (if (att =? addTo)%N then r_attach r else a))) (rumExtractEntries (compareFn att) qs hd dflt (option_map (tsvectorEntries build) (doc r))).
  Proof.
    intros Hr. destruct HC as (H1 & _ & qs & hd & HS & Hcol). exists qs, hd. split; [exact HS|]. unfold col, row_pairs.
    erewrite (col_filter (fun k => (k_att k =? att)%N) addTo r att _ (r_cols r) 1%N); [|intros k Ek; apply N.eqb_eq; exact Ek|exact H1|exact (Hcol r Hr)].
    rewrite filter_all; [reflexivity|]. intros e He. apply in_map_iff in He as ([[k c'] a] & <- & _). cbn. apply N.eqb_refl.
  Qed.
  Lemma col_null_doc r : In r table -> doc r = None -> exists a, col addTo att r = [(mkKey att dflt CatNullItem, a)].
  Proof. intros Hr E. destruct (col_rows r Hr) as (qs & hd & _ & ->). rewrite E. cbn. eexists. reflexivity. Qed.
  Lemma col_empty_doc r : In r table -> doc r = Some [] -> exists a, col addTo att r = [(mkKey att dflt CatEmptyItem, a)].
  Proof. intros Hr E. destruct (col_rows r Hr) as (qs & hd & _ & ->). rewrite E. cbn. eexists. reflexivity. Qed.
  Lemma entries_keyed d : tsvectorEntries build d = map (fun e => Entries.mkEntry (build (fst e)) false (vald (snd e))) (keyed d).
  Proof. unfold tsvectorEntries, rum_extract_tsvector_internal. rewrite !map_map. apply map_ext. intros [w ps]. reflexivity. Qed.
  Lemma col_doc r d : In r table -> doc r = Some d -> d <> [] ->
    NoDup (col addTo att r) /\
    (forall p, In p (col addTo att r) -> exists e, In e (keyed d) /\ p = pairOf r e) /\
    (forall e, In e (keyed d) -> exists e', In e' (keyed d) /\ In (pairOf r e') (col addTo att r) /\ compareFn att (build (fst e')) (build (fst e)) = 0).
  Proof.
    intros Hr E Hd. destruct (col_rows r Hr) as (qs & hd & HS & Ec). rewrite E in Ec. cbn [option_map] in Ec.
    assert (Hne : tsvectorEntries build d <> []) by (unfold tsvectorEntries, rum_extract_tsvector_internal; destruct d; [contradiction|discriminate]).
    pose proof (extract_spec (compareFn att) (HK att) qs hd dflt _ HS Hne) as X. cbn zeta in X. rewrite Ec. set (out := rumExtractEntries _ _ _ _ _) in *. clearbody out. destruct X as (X1 & X2 & X3).
    assert (F : forall s, In s out -> exists e, In e (keyed d) /\ s = (build (fst e), CatNormKey, vald (snd e))).
    { intros s Hs. destruct (X2 s Hs) as (e & He & ->). rewrite entries_keyed in He. apply in_map_iff in He as (e' & <- & He). exists e'. split; [exact He|reflexivity]. }
    split; [|split].
    - assert (Hns : NoDup (map (fun s : @stored K datum => fst s) out)).
      { clear - X1 HK. induction X1 as [|x l H IH Fx]; [constructor|]. cbn [map]. constructor; [|exact IH]. intro Hin. apply in_map_iff in Hin as (y & Ey & Hy). rewrite Forall_forall in Fx. specialize (Fx y Hy). rewrite Ey in Fx. destruct x as [[k c1] a]. cbn in Fx. unfold rumCompareEntries in Fx. rewrite Z.eqb_refl in Fx. cbn [negb] in Fx. destruct (negb _); [lia|]. pose proof (tc_refl _ (HK att) k). lia. }
      apply (NoDup_map_inv fst). rewrite map_map. rewrite (map_ext_in _ (fun s => mkKey att (fst (fst s)) (snd (fst s)))) by (intros [[k c] a] _; reflexivity).
      rewrite <- (map_map (fun s : @stored K datum => fst s) (fun kc => mkKey att (fst kc) (snd kc))). apply FinFun.Injective_map_NoDup; [|exact Hns]. intros [k c] [k' c'] EE. cbn in EE. congruence.
    - intros p Hp. apply in_map_iff in Hp as (s & <- & Hs). destruct (F s Hs) as (e & He & ->). exists e. split; [exact He|reflexivity].
    - intros e He. destruct (X3 (Entries.mkEntry (build (fst e)) false (vald (snd e)))) as (s & Hs & Es); [rewrite entries_keyed; apply in_map_iff; eauto|].
      destruct (F s Hs) as (e' & He' & ->). exists e'. split; [exact He'|]. split; [apply in_map_iff; exists (build (fst e'), CatNormKey, vald (snd e')); split; [reflexivity|exact Hs]|exact Es].
  Qed.
  (** A query key that asks for the words [H], none of which is taken for another one. *)
  Section Req.
    Variables (rq : qreq K) (H : list N -> Prop) (r : @hrow K datum) (d : document).
    Hypothesis Hatt : rq_att rq = att.
    Hypothesis Hr : In r table.
    Hypothesis Hd : doc r = Some d.
    Hypothesis Hask : forall w ps, In (w, ps) d -> (asks compareFn rq (mkKey att (build w) CatNormKey) = true <-> H w).
    Hypothesis Hno : asks compareFn rq (mkKey att dflt CatEmptyItem) = false.
    Hypothesis Hap : forall w ps w' ps', In (w, ps) d -> In (w', ps') d -> H w -> compareFn att (build w') (build w) = 0 -> w' = w.
    Lemma infos_words : exists sel, infos compareFn addTo r rq = map (fun e => if (att =? addTo)%N then r_attach r else vald (snd e)) sel /\
      (forall e, In e sel <-> In e (keyed d) /\ H (fst e)).
    Proof.
      rewrite (infos_col' compareFn addTo att) by exact Hatt. destruct d as [|x0 d0] eqn:Ed.
      - destruct (col_empty_doc r Hr Hd) as (a & ->). exists []. cbn [filter fst]. rewrite Hno. split; [reflexivity|]. cbn. tauto.
      - rewrite <- Ed in *. assert (Hne : d <> []) by (rewrite Ed; discriminate). destruct (col_doc r d Hr Hd Hne) as (Hnd & H1 & H2).
        assert (Hkd : forall w a, In (w, a) (keyed d) -> exists ps, In (w, ps) d) by (intros w a Hi; unfold rum_extract_tsvector_internal in Hi; apply in_map_iff in Hi as ([w' ps] & E & Hi); injection E as <- _; eauto).
        assert (Hfun : forall e e', In e (keyed d) -> In e' (keyed d) -> fst e = fst e' -> e = e').
        { destruct (proj1 (proj2 HC) r d Hr Hd) as [Hv _]. intros e e' He He' EE. apply (NoDup_map_eq fst (keyed d)); auto. unfold rum_extract_tsvector_internal. rewrite map_map. rewrite (map_ext _ fst) by (intros [? ?]; reflexivity). exact Hv. }
        assert (A : exists sel, filter (fun e => asks compareFn rq (fst e)) (col addTo att r) = map (pairOf r) sel /\ forall e, In e sel -> In e (keyed d) /\ H (fst e)).
        { assert (Hall : forall p, In p (filter (fun e => asks compareFn rq (fst e)) (col addTo att r)) -> exists e, In e (keyed d) /\ H (fst e) /\ p = pairOf r e).
          { intros p Hp. apply filter_In in Hp as [Hp Ha]. destruct (H1 p Hp) as ([w a] & He & ->). exists (w, a). split; [exact He|]. split; [|reflexivity]. destruct (Hkd w a He) as (ps & Hps). apply (Hask w ps Hps). exact Ha. }
          clear - Hall. induction (filter (fun e => asks compareFn rq (fst e)) (col addTo att r)) as [|p l IH]; [exists []; split; [reflexivity|intros ? []]|].
          destruct IH as (sel & E & Hs); [intros q Hq; apply Hall; right; exact Hq|]. destruct (Hall p (or_introl eq_refl)) as (e & He & Hh & ->). exists (e :: sel). cbn [map]. rewrite E. split; [reflexivity|]. intros e' [<-|He']; auto. }
        destruct A as (sel & E & Hs). exists sel. rewrite E, map_map. split; [reflexivity|]. intros e. split; [apply Hs|]. intros [He Hh]. destruct (H2 e He) as (e' & He' & Hc & Ecmp).
        assert (fst e' = fst e) as Ef.
        { destruct e as [w a], e' as [w' a']. destruct (Hkd _ _ He) as (ps & Hps), (Hkd _ _ He') as (ps' & Hps'). exact (Hap _ _ _ _ Hps Hps' Hh Ecmp). }
        apply (Hfun e' e He' He) in Ef. subst e'.
        assert (Hin : In (pairOf r e) (map (pairOf r) sel)).
        { rewrite <- E. apply filter_In. split; [exact Hc|]. cbn [pairOf fst]. destruct e as [w a]. destruct (Hkd _ _ He) as (ps & Hps). apply (Hask w ps Hps). exact Hh. }
        apply in_map_iff in Hin as (e' & Ep & He''). destruct (Hs e' He'') as [Hk' Hh']. assert (fst e' = fst e) as Ef; [|rewrite <- (Hfun e' e Hk' He Ef); exact He''].
        injection Ep as Ew _. destruct e as [w a], e' as [w' a']. cbn [fst] in *. destruct (Hkd _ _ He) as (ps & Hps), (Hkd _ _ Hk') as (ps' & Hps'). apply (Hap w ps w' ps' Hps Hps' Hh). rewrite Ew. apply (tc_refl _ (HK att)).
    Qed.
    Lemma shows_present join o : shows join (infos compareFn addTo r rq) o -> (checkOf o = true <-> exists w ps, In (w, ps) d /\ H w).
    Proof.
      destruct infos_words as (sel & -> & Hs). intro HS. pose proof (shows_some _ _ _ HS) as A.
      assert (B : checkOf o = true <-> o <> None) by (destruct o; cbn; split; congruence). rewrite B, A.
      assert (C : map (fun e : list N * option (list byte) => if (att =? addTo)%N then r_attach r else vald (snd e)) sel <> [] <-> sel <> []) by (destruct sel; cbn; split; congruence). rewrite C. split.
      - intro Hne. destruct sel as [|[w a] sel']; [congruence|]. destruct (proj1 (Hs (w, a)) (or_introl eq_refl)) as [Hk Hh]. unfold rum_extract_tsvector_internal in Hk. apply in_map_iff in Hk as ([w' ps] & E & Hi). injection E as <- _. exists w', ps. auto.
      - intros (w & ps & Hi & Hh) E. assert (In (w, option_map compress_pos ps) sel) as X; [|rewrite E in X; destruct X]. apply Hs. split; [|exact Hh]. unfold rum_extract_tsvector_internal. apply in_map_iff. exists (w, ps). auto.
    Qed.
    Lemma shows_found o : att <> addTo -> shows (Some joinDatum) (infos compareFn addTo r rq) o -> TsqSpec.found H (keyed d) (checkOf o) (bytesOf o).
    Proof.
      intros Hat. destruct infos_words as (sel & -> & Hs). apply N.eqb_neq in Hat. rewrite Hat.
      intros [[E ->]|(a & t & P & ->)].
      - apply map_eq_nil in E. subst sel. exists []. split; [exact Hs|]. split; [split; [discriminate|congruence]|reflexivity].
      - apply Permutation_sym, Permutation_map_inv in P as (sel' & E & P). assert (Hs' : forall e, In e sel' <-> In e (keyed d) /\ H (fst e)).
        { intro e. rewrite <- Hs. split; apply Permutation_in; [apply Permutation_sym; exact P|exact P]. }
        destruct sel' as [|e sel'']; [discriminate|]. cbn [map] in E. injection E as -> ->. exists (e :: sel''). split; [exact Hs'|]. split; [split; [discriminate|reflexivity]|].
        cbn [map join_all]. assert (Hsp : Forall stored_pos (map snd (e :: sel''))).
        { apply Forall_forall. intros x Hx. apply in_map_iff in Hx as (e' & <- & He'). apply Hs' in He' as [He' _]. unfold rum_extract_tsvector_internal in He'. apply in_map_iff in He' as ([w ps] & <- & Hi). destruct ps as [l|]; [|left; reflexivity]. right. destruct (proj2 (proj1 (proj2 HC) r d Hr Hd) w l Hi) as (P1 & P2 & _). exists l. auto. }
        inversion Hsp as [|? ? S1 S2]; subst. destruct (join_fold (map snd sel'') (snd e) S1 S2) as (z & Z1 & Z2).
        assert (Ez : fold_left (joinAdd (Some joinDatum)) (map (fun e => vald (snd e)) sel'') (vald (snd e)) = vald z) by (rewrite <- Z2, map_map; reflexivity). rewrite Ez.
        unfold join_add. rewrite Z1. destruct z; reflexivity.
    Qed.
  End Req.
End Column.

(** ** Queries *)
(** The match function: with positions ([true]) or of the addon classes. *)
Definition consistentOf (posn : bool) := if posn then rum_tsquery_consistent else rum_tsquery_timestamp_consistent.
Definition text_clause {K} (posn : bool) (build : list N -> K) (read : K -> list N) (qsort : list operand -> list operand) (s : N * option tsq) : clause K :=
  textClause build (fun a b => gin_cmp_prefix (read a) (read b)) qsort (consistentOf posn) (fst s) (snd s).
Lemma consistent_none posn m check add q : (forall j, nth j check false = false) -> requires_match q = true -> fst (consistentOf posn m check add (Some q)) = false.
Proof.
  intros H E. destruct posn; cbn [consistentOf rum_tsquery_consistent rum_tsquery_timestamp_consistent]; rewrite execute_needs; auto; intros i o b; unfold checkcondition_rum; cbn [cv_map cv_check]; rewrite H; reflexivity.
Qed.
Lemma consistent_pre posn m T check add q : (forall j, nth j T false = false -> nth j check false = false) ->
  rum_tsquery_pre_consistent m T (Some q) = false -> fst (consistentOf posn m check add (Some q)) = false.
Proof.
  intros H E. cbn [rum_tsquery_pre_consistent] in E. destruct (fst (pg_TS_execute (pre_checkcondition_rum m T) false 0 q)) eqn:E0; try discriminate.
  destruct posn; cbn [consistentOf rum_tsquery_consistent rum_tsquery_timestamp_consistent];
    [rewrite (pre_refuses m T (mkChk m check add false) (mkF true false false) eq_refl eq_refl H q false 0 E0)|rewrite (pre_refuses m T (mkChk m check add true) (mkF true true false) eq_refl eq_refl H q false 0 E0)]; reflexivity.
Qed.
Lemma valid_empty : valid_doc [].
Proof. split; [constructor|intros w l []]. Qed.
Lemma nth_map_d {A B} (f : A -> B) l j d d' : f d = d' -> nth j (map f l) d' = f (nth j l d).
Proof. intros <-. apply map_nth. Qed.

Section Query.
  Context {K : Type}.
  Variable compareFn : N -> K -> K -> Z.
  Hypothesis HK : forall n, total_cmp (compareFn n).
  Variables (build : list N -> K) (read : K -> list N) (dflt : K) (addTo attach : N) (table : list (@hrow K datum)).
  Variable doc : N -> @hrow K datum -> option document.
  Variables (curKeyOrdering canPre : N -> bool) (useAlt posn : bool).
  Variables (qsort : list operand -> list operand) (conds : list (N * option tsq)).
  Hypothesis Hqs : sorts_words qsort.
  Hypothesis Hne : conds <> [].
  Hypothesis HC : forall s, In s conds -> text_column compareFn build dflt table (fst s) (doc (fst s)).
  Hypothesis HW : forall s q, In s conds -> snd s = Some q -> keys_fit compareFn (fst s) build read table (doc (fst s)) q.
  Hypothesis HM : forall s q, In s conds -> snd s = Some q -> modes_agree q.
  Hypothesis HF : posn = true -> forall s q, In s conds -> snd s = Some q -> query_fits table (doc (fst s)) q.
  Hypothesis Hkind : if posn then forall s, In s conds -> fst s <> addTo
    else (forall s, In s conds -> fst s = addTo) /\ addTo <> attach /\ (useAlt = true -> forall r, In r table -> r_attach r <> None).
  Hypothesis Hscan : scan_fits canPre conds.
  Notation clauseOf := (text_clause posn build read qsort).
  Notation wordReq att o := (mkReq att (build (o_word o)) CatNormKey (if o_prefix o then Some (fun k => gin_cmp_prefix (read (build (o_word o))) (read k)) else None) false).

  (** *** The clauses *)
  Lemma clause_form att q : exists ents m, rum_extract_tsquery_internal (fun w => w) qsort q = Some (map (fun e => (o_word e, o_prefix e)) ents, m) /\
    (forall o, In o ents -> in_query o q) /\ (forall o, in_query o q -> exists e, In e ents /\ o_word e = o_word o) /\
    clauseOf (att, Some q) = mkClause att false (map (fun o => mkQval (build (o_word o)) false (if o_prefix o then Some (fun k => gin_cmp_prefix (read (build (o_word o))) (read k)) else None) (fun _ => 0)) ents)
      (if requires_match q then 0 else 2) (fun v => consistentOf posn m (map checkOf v) (map bytesOf v) (Some q)) (Some (fun T => rum_tsquery_pre_consistent m T (Some q))).
  Proof.
    destruct (extract_query_spec (fun w => w) qsort q Hqs) as (ents & m & E & _ & _ & Hin & Hk). destruct (extract_query_spec build qsort q Hqs) as (ents' & m' & E' & _).
    exists ents, m. split; [exact E|]. split; [exact Hin|]. split.
    - intros o Ho. apply in_items, In_nth_error in Ho as (k & Hk0). destruct (Hk k o Hk0) as (e & He & Ew). exists e. split; [eapply nth_error_In; exact He|exact Ew].
    - unfold text_clause, textClause. cbn [fst snd]. assert (Eb : rum_extract_tsquery_internal build qsort q = Some (map (fun e => (build (o_word e), o_prefix e)) ents, m)).
      { clear - E E'. unfold rum_extract_tsquery_internal in *. destruct (fill_map (SortAndUniqItems qsort q) (items q)); [|discriminate]. injection E as E <-. f_equal. f_equal.
        apply (f_equal (map (fun p : list N * bool => (build (fst p), snd p)))) in E. rewrite !map_map in E. exact E. }
      rewrite Eb. f_equal. rewrite map_map. apply map_ext. intros o. cbn [fst snd]. destruct (o_prefix o); reflexivity.
  Qed.
  Lemma clause_att s : cl_att (clauseOf s) = fst s.
  Proof. destruct s as [att [q|]]; [|reflexivity]. destruct (clause_form att q) as (ents & m & _ & _ & _ & ->). reflexivity. Qed.
  Lemma clause_null s : cl_isnull (clauseOf s) = false.
  Proof. destruct s as [att [q|]]; [|reflexivity]. destruct (clause_form att q) as (ents & m & _ & _ & _ & ->). reflexivity. Qed.
  Lemma reqs att q : exists ents m, rum_extract_tsquery_internal (fun w => w) qsort q = Some (map (fun e => (o_word e, o_prefix e)) ents, m) /\
    (forall o, In o ents -> in_query o q) /\ (forall o, in_query o q -> exists e, In e ents /\ o_word e = o_word o) /\
    requests dflt (clauseOf (att, Some q)) = map (fun o => wordReq att o) ents ++ (if requires_match q then [] else [mkReq att dflt CatEmptyQuery None true]) /\
    (forall V : qreq K -> option (option datum), map (fun v => V (reqOf (cl_att (clauseOf (att, Some q))) v)) (cl_vals (clauseOf (att, Some q))) = map (fun o => V (wordReq att o)) ents) /\
    (forall v, cl_cons (clauseOf (att, Some q)) v = consistentOf posn m (map checkOf v) (map bytesOf v) (Some q)) /\
    cl_pre (clauseOf (att, Some q)) = Some (fun T => rum_tsquery_pre_consistent m T (Some q)) /\ length (cl_vals (clauseOf (att, Some q))) = length ents /\
    noKey (clauseOf (att, Some q)) = (requires_match q && (length ents =? 0)%nat).
  Proof.
    destruct (clause_form att q) as (ents & m & E1 & E2 & E3 & ->). exists ents, m. split; [exact E1|]. split; [exact E2|]. split; [exact E3|]. cbn [cl_att cl_vals cl_cons cl_pre]. split; [|split; [|split; [|split; [|split]]]]; try reflexivity.
    - unfold requests, hidden, modeOf. cbn [cl_att cl_vals cl_mode]. rewrite map_map. f_equal. destruct (requires_match q); reflexivity.
    - intro V. rewrite map_map. reflexivity.
    - apply map_length.
    - unfold noKey, modeOf. cbn [cl_isnull cl_mode cl_vals orb]. rewrite map_length. destruct (requires_match q); reflexivity.
  Qed.
  Lemma reqs_none att : requests dflt (clauseOf (att, None)) = [].
  Proof. reflexivity. Qed.
  Lemma req_att s q : In q (requests dflt (clauseOf s)) -> rq_att q = fst s.
  Proof.
    destruct s as [att [tq|]]; [|intros []]. destruct (reqs att tq) as (ents & m & _ & _ & _ & -> & _). intro H. apply in_app_iff in H as [H|H]; [apply in_map_iff in H as (o & <- & _); reflexivity|]. destruct (requires_match tq); [destruct H|]. destruct H as [<-|[]]. reflexivity.
  Qed.
  (** *** Which clauses are kept *)
  Lemma dropped_none s : In s conds -> (cl_att (clauseOf s) =? attach)%N && existsb (fun c' => (cl_att c' =? addTo)%N) (map clauseOf conds) = false.
  Proof.
    intro Hs. rewrite clause_att. destruct posn eqn:Ep.
    - rewrite <- Ep. apply andb_false_iff. right. destruct (existsb _ _) eqn:E; [|reflexivity]. exfalso. apply existsb_exists in E as (c & Hc & E). apply in_map_iff in Hc as (s' & <- & Hs'). apply N.eqb_eq in E. rewrite clause_att in E. exact (Hkind s' Hs' E).
    - apply andb_false_iff. left. apply N.eqb_neq. destruct Hkind as (H1 & H2 & _). rewrite (H1 s Hs). exact H2.
  Qed.
  Lemma kept_all : kept addTo attach (map clauseOf conds) = map clauseOf conds.
  Proof. unfold kept. apply filter_all. intros c Hc. apply in_map_iff in Hc as (s & <- & Hs). rewrite (dropped_none s Hs). reflexivity. Qed.
  Lemma sat_holds V r s : In s conds -> (satisfies dflt addTo attach V (map clauseOf conds) r (clauseOf s) <-> holds dflt V (clauseOf s)).
  Proof. intro Hs. unfold satisfies. rewrite (dropped_none s Hs). reflexivity. Qed.
  Lemma query_key q : In q (query_keys dflt addTo attach curKeyOrdering (map clauseOf conds) []) <-> exists s, In s conds /\ In q (requests dflt (clauseOf s)).
  Proof.
    unfold query_keys. rewrite kept_all. cbn [live filter flat_map]. rewrite app_nil_r. destruct (map clauseOf conds) as [|c0 l0] eqn:E0; [apply map_eq_nil in E0; contradiction|]. rewrite <- E0. rewrite in_flat_map. split.
    - intros (c & Hc & Hq). apply in_map_iff in Hc as (s & <- & Hs). eauto.
    - intros (s & Hs & Hq). exists (clauseOf s). split; [apply (in_map clauseOf); exact Hs|exact Hq].
  Qed.
  (** *** The query is covered *)
  Lemma text_partial s q : In s conds -> In q (requests dflt (clauseOf s)) -> forall P, partial_ok compareFn P q.
  Proof.
    intros Hs Hq P f Ef. destruct s as [att [tq|]]; [|destruct Hq]. destruct (reqs att tq) as (ents & m & _ & Hin & _ & Er & _). rewrite Er in Hq. apply in_app_iff in Hq as [Hq|Hq]; [|destruct (requires_match tq); [destruct Hq|destruct Hq as [<-|[]]; discriminate]].
    apply in_map_iff in Hq as (o & <- & Ho). cbn [rq_partial rq_att rq_key] in *. destruct (o_prefix o) eqn:Ep; [|discriminate]. injection Ef as <-.
    destruct (HW (att, Some tq) tq Hs eq_refl) as [[Hrd Hsg]|[Hnp _]]; [|exfalso; apply Hnp; exists o; split; [exact (Hin o Ho)|exact Ep]]. cbn [fst] in Hsg.
    assert (L : forall x y, compareFn att x y <= 0 -> word_compare (read x) (read y) <= 0) by (intros x y Hxy; specialize (Hsg x y); lia).
    assert (L' : forall x y, word_compare (read x) (read y) <= 0 -> compareFn att x y <= 0) by (intros x y Hxy; specialize (Hsg x y); lia).
    split; [|split].
    - intros k _ E. apply L'. apply prefix_le, is_prefix_spec. apply cmp_prefix_0. exact E.
    - intros k k' _ _ H1 H2 H3 H4. apply cmp_prefix_pos in H3. apply cmp_prefix_0, is_prefix_spec in H4. rewrite (prefix_stop _ _ _ (L _ _ H1) (L _ _ H2) H3) in H4. discriminate.
    - intros k k' _ _ E. f_equal. apply wc_eq. specialize (Hsg k k'). lia.
  Qed.
  Lemma cons_nothing v : fst (cl_cons (clauseOf (0%N, None)) v) = false.
  Proof. destruct posn; reflexivity. Qed.
  Lemma forall2_nth T v : Forall2 (fun (b : bool) (o : option (option datum)) => b = true \/ o = None) T v -> forall j, nth j T false = false -> nth j (map checkOf v) false = false.
  Proof.
    intro F. induction F as [|b o T v H F IH]; intros [|j] E; cbn in *; try reflexivity; auto. destruct H as [->| ->]; [discriminate|reflexivity].
  Qed.
  Lemma text_pre s : pre_ok (clauseOf s).
  Proof.
    intros f T v Ef Hf _ F. destruct s as [att [tq|]].
    - destruct (reqs att tq) as (ents & m & _ & _ & _ & _ & _ & Ec & Epre & _). rewrite Epre in Ef. injection Ef as <-. rewrite Ec. apply (consistent_pre posn m T); [|exact Hf]. apply forall2_nth. exact F.
    - unfold text_clause, textClause. cbn [cl_cons snd]. destruct posn; reflexivity.
  Qed.
  Lemma none_checks (ents : list operand) j : nth j (map checkOf (map (fun _ => @None (option datum)) ents)) false = false.
  Proof. rewrite map_map. cbn. revert j. induction ents; intros [|j]; cbn; auto. Qed.
  Lemma empty_answer s q : In s conds -> snd s = Some q -> matches [] q -> holds_of_none (clauseOf s) = true.
  Proof.
    intros Hs Eq Hm. destruct s as [att oq]. cbn [snd] in Eq. subst oq. destruct (reqs att q) as (ents & m & E1 & _ & _ & _ & Ev & Ec & _). unfold holds_of_none. rewrite Ec.
    specialize (Ev (fun _ => None)). cbn beta in Ev.
    assert (El : map (fun _ : qval K => @None (option datum)) (cl_vals (clauseOf (att, Some q))) = map (fun _ => None) ents) by exact Ev. rewrite El.
    destruct posn eqn:Ep.
    - destruct (HF eq_refl _ _ Hs eq_refl) as (Hd & _).
      refine (proj1 (proj1 (consistent_found qsort q [] _ m _ _ Hqs E1 valid_empty _ (HM _ _ Hs eq_refl) _ _)) Hm).
      + split; [exact Hd|intros w l p []].
      + intros o _. split; [intros (w & [] & _)|right; intros w l w' l' e e' []].
      + intros j w pm _. exists []. split; [cbn; tauto|]. rewrite none_checks. split; [split; [discriminate|congruence]|]. cbn. f_equal. rewrite map_map. cbn. symmetry. clear. revert j. induction ents; intros [|j]; cbn; auto.
    - refine (proj1 (timestamp_found qsort q [] _ m _ _ Hqs E1 (HM _ _ Hs eq_refl) _) Hm). intros j w pm _. rewrite none_checks. split; [discriminate|intros (w' & ps & [] & _)].
  Qed.
  Lemma text_covered ever : covered compareFn dflt addTo attach useAlt curKeyOrdering canPre ever table (map clauseOf conds) [].
  Proof.
    split.
    - intros q Hq. apply query_key in Hq as (s & Hs & Hq). exact (text_partial s q Hs Hq _).
    - intros q r Hq _ Hu Ea Hr. apply query_key in Hq as (s & Hs & Hq). apply req_att in Hq. destruct posn eqn:Ep; [exfalso; apply (Hkind s Hs); congruence|]. destruct Hkind as (_ & _ & H3). auto.
    - intros c Hc Hk. rewrite kept_all in Hk. contradiction.
    - intros c Hc E. apply in_map_iff in Hc as (s & <- & Hs). rewrite clause_att in *. destruct posn eqn:Ep; [exfalso; exact (Hkind s Hs E)|]. destruct Hkind as (_ & H2 & _). congruence.
    - intro E. apply map_eq_nil in E. contradiction.
    - intros _. split; [intros o []|]. exists (negb posn). intros c Hc. rewrite kept_all, app_nil_r in Hc. apply in_map_iff in Hc as (s & <- & Hs). rewrite clause_att. destruct posn eqn:Ep; cbn [negb]; [apply N.eqb_neq; exact (Hkind s Hs)|apply N.eqb_eq; apply Hkind; exact Hs].
    - intros (H1 & _ & H3). destruct Hscan as [(s & Hs & Hp)|[(s & q & Hs & Eq & o & Ho & Hp)|(s & Es & Hn)]].
      + exfalso. specialize (H1 (clauseOf s)). rewrite kept_all in H1. specialize (H1 (in_map _ _ _ Hs)). rewrite clause_att in H1. congruence.
      + exfalso. destruct s as [att oq]. cbn [snd] in Eq. subst oq. destruct (reqs att q) as (ents & m & _ & Hin & Hex & Er & _). destruct (Hex o Ho) as (e & He & Ew).
        assert (Epe : o_prefix e = true) by (rewrite <- Hp; apply (HM _ _ Hs eq_refl); [apply Hin; exact He|exact Ho|exact Ew]).
        specialize (H3 (wordReq att e)). cbn [rq_partial] in H3. rewrite Epe in H3. discriminate H3. apply query_key. exists (att, Some q). split; [exact Hs|]. rewrite Er. apply in_app_iff. left. apply in_map_iff. exists e. split; [rewrite Epe; reflexivity|exact He].
      + assert (Hs : In s conds) by (rewrite Es; left; reflexivity). unfold fast_ok. rewrite kept_all. pose proof kept_all as Hka. rewrite Es. cbn [map]. split; [intros o []|]. split; [apply text_pre|].
        destruct (holds_of_none (clauseOf s)) eqn:Eh; [intros o []|]. intros q Hq.
        assert (Hq' : In q (query_keys dflt addTo attach curKeyOrdering (map clauseOf conds) [])) by (rewrite Es; exact Hq). apply query_key in Hq' as (s' & Hs' & Hq'). rewrite Es in Hs'. destruct Hs' as [<-|[]].
        assert (Hnp : rq_partial q = None) by (apply H3; rewrite Es; exact Hq). unfold isMany. rewrite Hnp. destruct s as [att [tq|]]; [|destruct Hq']. destruct (reqs att tq) as (ents & m & _ & _ & _ & Er & _). rewrite Er in Hq'. apply in_app_iff in Hq' as [Hq'|Hq']; [apply in_map_iff in Hq' as (o & <- & _); reflexivity|].
        destruct (Hn tq eq_refl) as [Hr|Hm]; [rewrite Hr in Hq'; destruct Hq'|]. rewrite (empty_answer _ _ Hs eq_refl Hm) in Eh. discriminate.
  Qed.

  (** *** What the query keys show of a row *)
  Variable joinFn : N -> option (datum -> datum -> datum).
  Hypothesis Hjoin : posn = true -> forall s, In s conds -> joinFn (fst s) = Some joinDatum.
  Variable V : @hrow K datum -> qreq K -> option (option datum).
  Hypothesis HV : forall r q, In r table -> In q (query_keys dflt addTo attach curKeyOrdering (map clauseOf conds) []) -> shows (joinFn (rq_att q)) (infos compareFn addTo r q) (V r q).

  Lemma norm_ask att x k : asks compareFn (mkReq att x CatNormKey None false) (mkKey att k CatNormKey) = true <-> compareFn att k x = 0.
  Proof. unfold asks, rumCompareAttEntries, rumCompareEntries. cbn. rewrite N.eqb_refl. cbn. apply Z.eqb_eq. Qed.
  Lemma norm_other att x p k c : c <> CatNormKey -> asks compareFn (mkReq att x CatNormKey p false) (mkKey att k c) = false.
  Proof.
    intro H. unfold asks. cbn [rq_partial rq_cat rq_att rq_key k_att k_cat k_val]. destruct p.
    - destruct c; cbn; rewrite ?andb_false_r; try reflexivity. congruence.
    - unfold rumCompareAttEntries, rumCompareEntries. cbn. rewrite N.eqb_refl. destruct c; cbn; try reflexivity. congruence.
  Qed.
  (** The words a query key of the clause asks for. *)
  Lemma word_asks att q o : In (att, Some q) conds -> in_query o q ->
    forall r d, In r table -> doc att r = Some d ->
    (forall w ps, In (w, ps) d -> (asks compareFn (wordReq att o) (mkKey att (build w) CatNormKey) = true <-> asks_for (mkOp (o_word o) 0 (o_prefix o)) w)) /\
    (forall w ps w' ps', In (w, ps) d -> In (w', ps') d -> asks_for (mkOp (o_word o) 0 (o_prefix o)) w -> compareFn att (build w') (build w) = 0 -> w' = w).
  Proof.
    intros Hs Ho r d Hr Hd. destruct (HW (att, Some q) q Hs eq_refl) as [[Hrd Hsg]|[Hnp Hnc]]; cbn [fst] in *.
    - assert (Heq : forall a b, compareFn att (build a) (build b) = 0 <-> a = b) by (intros a b; rewrite <- wc_eq; specialize (Hsg (build a) (build b)); rewrite !Hrd in Hsg; lia).
      split; [|intros w ps w' ps' _ _ _; apply Heq]. intros w ps _. unfold asks_for. cbn [o_prefix o_word]. destruct (o_prefix o) eqn:Ep.
      + unfold asks. cbn [rq_partial rq_cat rq_att k_att k_cat k_val]. rewrite N.eqb_refl. cbn [cat_code Z.eqb andb]. rewrite !Hrd, Z.eqb_eq. apply cmp_prefix_0.
      + rewrite norm_ask, Heq. reflexivity.
    - assert (Ep : o_prefix o = false) by (destruct (o_prefix o) eqn:Ep; [exfalso; apply Hnp; exists o; auto|reflexivity]). rewrite Ep. unfold asks_for. cbn [o_prefix o_word]. split.
      + intros w ps Hw. rewrite norm_ask. split; [apply (Hnc r d w ps o Hr Hd Hw Ho)|]. intros ->. apply (tc_refl _ (HK att)).
      + intros w ps w' ps' _ Hw' -> . apply (Hnc r d w' ps' o Hr Hd Hw' Ho).
  Qed.
  Definition shown (r : @hrow K datum) (s : N * option tsq) : list (option (option datum)) := map (fun v => V r (reqOf (cl_att (clauseOf s)) v)) (cl_vals (clauseOf s)).
  Definition answer (r : @hrow K datum) (s : N * option tsq) : bool * bool := cl_cons (clauseOf s) (shown r s).
  Lemma row_answer r s q d : In s conds -> snd s = Some q -> In r table -> doc (fst s) r = Some d ->
    verdict d q (answer r s) /\ (posn = true -> snd (answer r s) = true -> weighted_under_not false q \/ exists o, in_query o q /\ stripped d o).
  Proof.
    intros Hs Eq Hr Hd. destruct s as [att oq]. cbn [snd fst] in *. subst oq. destruct (reqs att q) as (ents & m & E1 & Hin & _ & Er & Ev & Ec & _). unfold answer. rewrite Ec. unfold shown. rewrite Ev.
    assert (Hsh : forall o, In o ents -> shows (joinFn att) (infos compareFn addTo r (wordReq att o)) (V r (wordReq att o))).
    { intros o Ho. assert (X := HV r (wordReq att o) Hr). cbn [rq_att] in X. apply X. apply query_key. exists (att, Some q). split; [exact Hs|]. rewrite Er. apply in_app_iff. left. apply in_map_iff. eauto. }
    assert (Hent : forall j w pm, nth_error (map (fun e => (o_word e, o_prefix e)) ents) j = Some (w, pm) -> exists o, In o ents /\ w = o_word o /\ pm = o_prefix o /\
       nth j (map checkOf (map (fun o => V r (wordReq att o)) ents)) false = checkOf (V r (wordReq att o)) /\ nth j (map bytesOf (map (fun o => V r (wordReq att o)) ents)) None = bytesOf (V r (wordReq att o))).
    { intros j w pm Hj. rewrite nth_error_map in Hj. destruct (nth_error ents j) as [o|] eqn:Ej; [|discriminate]. injection Hj as <- <-. exists o. split; [eapply nth_error_In; exact Ej|]. split; [reflexivity|]. split; [reflexivity|].
      rewrite !map_map. split; apply nth_error_nth; rewrite nth_error_map, Ej; reflexivity. }
    assert (HWA : forall o, In o ents -> _) by (intros o Ho; exact (word_asks att q o Hs (Hin o Ho) r d Hr Hd)). cbv beta in HWA.
    assert (HNO : forall x p, asks compareFn (mkReq att x CatNormKey p false) (mkKey att dflt CatEmptyItem) = false) by (intros x p; apply norm_other; discriminate).
    unfold consistentOf. destruct posn eqn:Ep.
    - destruct (HF eq_refl _ _ Hs eq_refl) as (_ & _ & Hfit). destruct (Hfit r d Hr Hd) as [Hpf Hcl]. destruct (HC _ Hs) as (_ & Hvd & _).
      destruct (consistent_found qsort q d _ m (map checkOf (map (fun o => V r (wordReq att o)) ents)) (map bytesOf (map (fun o => V r (wordReq att o)) ents)) Hqs E1 (Hvd r d Hr Hd) Hpf (HM _ _ Hs eq_refl) Hcl) as [A B].
      + intros j w pm Hj. destruct (Hent j w pm Hj) as (o & Ho & -> & -> & -> & ->). destruct (HWA o Ho) as [W1 W2].
        apply (shows_found compareFn HK build dflt addTo table att (doc att) (HC _ Hs) (wordReq att o) _ r d eq_refl Hr Hd W1 (HNO _ _) W2 _ (Hkind _ Hs)).
        specialize (Hsh o Ho). pose proof (Hjoin eq_refl _ Hs) as Ej. cbn [fst] in Ej. rewrite Ej in Hsh. exact Hsh.
      + split; [exact A|]. intros _. exact B.
    - split; [|discriminate]. apply (timestamp_found qsort q d _ m _ _ Hqs E1 (HM _ _ Hs eq_refl)). intros j w pm Hj. destruct (Hent j w pm Hj) as (o & Ho & -> & -> & -> & _). destruct (HWA o Ho) as [W1 W2].
      exact (shows_present compareFn HK build dflt addTo table att (doc att) (HC _ Hs) (wordReq att o) _ r d eq_refl Hr Hd W1 (HNO _ _) W2 _ _ (Hsh o Ho)).
  Qed.
  Lemma holds_text r s : In s conds -> In r table ->
    (holds dflt (V r) (clauseOf s) -> exists d, doc (fst s) r = Some d /\ fst (answer r s) = true) /\
    (forall d, doc (fst s) r = Some d -> tsmatches d (snd s) -> holds dflt (V r) (clauseOf s)).
  Proof.
    intros Hs Hr. split.
    - intros (_ & (q0 & Hq0 & Hv) & Hc). destruct (doc (fst s) r) as [d|] eqn:Ed; [exists d; split; [reflexivity|exact Hc]|]. exfalso. apply Hv.
      assert (Hqk : In q0 (query_keys dflt addTo attach curKeyOrdering (map clauseOf conds) [])) by (apply query_key; eauto). pose proof (HV r q0 Hr Hqk) as HS. pose proof (req_att s q0 Hq0) as Ha.
      rewrite (infos_col' compareFn addTo (fst s)) in HS by exact Ha. destruct (col_null_doc compareFn build dflt addTo table (fst s) (doc (fst s)) (HC s Hs) r Hr Ed) as (a & Ec). rewrite Ec in HS. cbn [filter fst] in HS.
      assert (Ef : asks compareFn q0 (mkKey (fst s) dflt CatNullItem) = false).
      { destruct s as [att [tq|]]; [|destruct Hq0]. destruct (reqs att tq) as (ents & m & _ & _ & _ & Er & _). rewrite Er in Hq0. apply in_app_iff in Hq0 as [Hq0|Hq0]; [apply in_map_iff in Hq0 as (o & <- & _); apply norm_other; discriminate|].
        destruct (requires_match tq); [destruct Hq0|]. destruct Hq0 as [<-|[]]. cbn. rewrite N.eqb_refl. reflexivity. }
      rewrite Ef in HS. destruct HS as [[_ ->]|(? & ? & P & _)]; [reflexivity|apply Permutation_nil in P; discriminate].
    - intros d Hd Hm. destruct (snd s) as [q|] eqn:Eq; [|destruct Hm]. cbn [tsmatches] in Hm. destruct (row_answer r s q d Hs Eq Hr Hd) as [[A _] _]. specialize (A Hm). split; [apply clause_null|]. split; [|exact A].
      destruct s as [att oq]. cbn [snd fst] in *. subst oq. destruct (reqs att q) as (ents & m & _ & _ & _ & Er & Ev & Ec & _). rewrite Er. destruct (requires_match q) eqn:Erm.
      + destruct (existsb (fun o => checkOf (V r (wordReq att o))) ents) eqn:Ex.
        * apply existsb_exists in Ex as (o & Ho & Eo). exists (wordReq att o). split; [apply in_app_iff; left; apply in_map_iff; eauto|]. destruct (V r (wordReq att o)); [discriminate|discriminate Eo].
        * exfalso. unfold answer in A. rewrite Ec in A. unfold shown in A. rewrite Ev in A. rewrite consistent_none in A; [discriminate| |exact Erm]. intro j. rewrite map_map.
          destruct (nth_in_or_default j (map (fun o => checkOf (V r (wordReq att o))) ents) false) as [Hi|E]; [|exact E]. apply in_map_iff in Hi as (o & Eo & Ho). rewrite <- Eo. destruct (checkOf (V r (wordReq att o))) eqn:E; [|reflexivity]. assert (existsb (fun o => checkOf (V r (wordReq att o))) ents = true) by (apply existsb_exists; eauto). congruence.
      + exists (mkReq att dflt CatEmptyQuery None true). split; [apply in_app_iff; right; left; reflexivity|].
        assert (Hqk : In (mkReq att dflt CatEmptyQuery None true) (query_keys dflt addTo attach curKeyOrdering (map clauseOf conds) [])) by (apply query_key; exists (att, Some q); split; [exact Hs|rewrite Er; apply in_app_iff; right; left; reflexivity]).
        pose proof (HV r _ Hr Hqk) as HS. apply shows_some in HS. apply HS. rewrite (infos_col' compareFn addTo att) by reflexivity. destruct d as [|x d0] eqn:Edd.
        * destruct (col_empty_doc compareFn build dflt addTo table att (doc att) (HC _ Hs) r Hr Hd) as (a & ->). cbn. rewrite N.eqb_refl. discriminate.
        * destruct (col_doc compareFn HK build dflt addTo table att (doc att) (HC _ Hs) r _ Hr Hd ltac:(discriminate)) as (_ & _ & H2). destruct (H2 (fst x, option_map compress_pos (snd x))) as (e' & _ & Hc & _); [left; destruct x; reflexivity|].
          intro E. apply map_eq_nil in E. assert (X : In (pairOf build addTo att r e') (filter (fun e => asks compareFn (mkReq att dflt CatEmptyQuery None true) (fst e)) (col addTo att r))); [|rewrite E in X; destruct X].
          apply filter_In. split; [exact Hc|]. cbn. rewrite N.eqb_refl. reflexivity.
  Qed.
  Lemma nokey_spec s r : In s conds -> In r table -> (exists d, doc (fst s) r = Some d /\ tsmatches d (snd s)) -> noKey (clauseOf s) = false.
  Proof.
    intros Hs Hr (d & _ & Hm). destruct s as [att [q|]]; [|destruct Hm]. destruct (reqs att q) as (ents & m & _ & _ & Hex & _ & _ & _ & _ & _ & ->).
    assert (Ho : exists o, in_query o q) by (clear; induction q as [o|q IH|l IH r _|l IH r _|n l IH r _]; [exists o; reflexivity|exact IH|destruct IH as (o & H); exists o; left; exact H|destruct IH as (o & H); exists o; left; exact H|destruct IH as (o & H); exists o; left; exact H]).
    destruct Ho as (o & Ho). destruct (Hex o Ho) as (e & He & _). destruct ents; [destruct He|]. cbn. apply andb_false_r.
  Qed.
End Query.

Theorem text_query (K : Type) (compareFn : N -> K -> K -> Z) altOf attrOf cmpA rawSize (dflt : K) useAlt addTo built history ix :
  table_index compareFn altOf attrOf cmpA rawSize dflt useAlt addTo built history ix ->
  let table := rows_now built history in
  forall attach curKeyOrdering tuplesort junk joinFn canPre estimate sortEnts visit iterate tbmMax,
  sorter tuplesort -> junk_harmless compareFn history ix junk -> (forall f a, joinFn addTo = Some f -> f a a = a) -> sorts_entries useAlt addTo cmpA sortEnts ->
  forall posn build read qsort (doc : N -> @hrow K datum -> option document), sorts_words qsort ->
  forall conds, conds <> [] ->
  (forall s, In s conds -> text_column compareFn build dflt table (fst s) (doc (fst s))) ->
  (forall s q, In s conds -> snd s = Some q -> keys_fit compareFn (fst s) build read table (doc (fst s)) q) ->
  (forall s q, In s conds -> snd s = Some q -> modes_agree q) ->
  (posn = true -> forall s q, In s conds -> snd s = Some q -> query_fits table (doc (fst s)) q) ->
  (if posn then forall s, In s conds -> fst s <> addTo
   else (forall s, In s conds -> fst s = addTo) /\ addTo <> attach /\ (useAlt = true -> forall r, In r table -> r_attach r <> None)) ->
  (posn = true -> forall s, In s conds -> joinFn (fst s) = Some joinDatum) ->
  scan_fits canPre conds ->
  exists out,
    queryScan dflt addTo attach curKeyOrdering compareFn useAlt cmpA tuplesort junk joinFn canPre estimate sortEnts visit iterate tbmMax ix
      (map (text_clause posn build read qsort) conds) [] = Some out /\
    NoDup (map fst out) /\
    (forall p re, In (p, re) out -> exists r, In r table /\ r_tid r = p /\
       (forall s, In s conds -> exists d, doc (fst s) r = Some d /\ (re = false -> tsmatches d (snd s))) /\
       (posn = true -> re = true -> exists s q d, In s conds /\ snd s = Some q /\ doc (fst s) r = Some d /\ (weighted_under_not false q \/ exists o, in_query o q /\ stripped d o))) /\
    (forall r, In r table -> (forall s, In s conds -> exists d, doc (fst s) r = Some d /\ tsmatches d (snd s)) -> exists re, In (r_tid r, re) out).
Proof.
  intros Hti table attach curKeyOrdering tuplesort junk joinFn canPre estimate sortEnts visit iterate tbmMax Ht HJ Hid Hse posn build read qsort doc Hqs conds Hne HC HW HM HF Hkind Hjoin Hscan.
  pose proof (proj1 (ti_columns _ _ _ _ _ _ _ _ _ _ _ Hti)) as HK.
  pose proof (text_covered compareFn HK build read dflt addTo attach table doc curKeyOrdering canPre useAlt posn qsort conds Hqs Hne HW HM HF Hkind Hscan (ever built history)) as Hcov.
  destruct (query_table K compareFn altOf attrOf cmpA rawSize dflt useAlt addTo built history ix Hti attach curKeyOrdering tuplesort junk joinFn canPre estimate sortEnts visit iterate tbmMax Ht HJ Hid Hse _ [] Hcov)
    as (V & out & Hq & HV & Hnd & Hp & Hre). fold table in HV, Hp, Hre. set (cl := text_clause posn build read qsort) in *.
  assert (Hdn : forall s, In s conds -> ((cl_att (cl s) =? attach)%N && existsb (fun c' : clause K => (cl_att c' =? addTo)%N) (map cl conds)) = false) by exact (dropped_none build read addTo attach table doc useAlt posn qsort conds Hqs HF Hkind).
  assert (Hsat : forall r s, In s conds -> (satisfies dflt addTo attach (V r) (map cl conds) r (cl s) <-> holds dflt (V r) (cl s))).
  { intros r s Hs. unfold satisfies. rewrite (Hdn s Hs). reflexivity. }
  assert (Hkey : forall r, (forall s, In s conds -> holds dflt (V r) (cl s)) -> existsb noKey (map cl conds) = false).
  { intros r Hh. destruct (existsb noKey _) eqn:E; [|reflexivity]. exfalso. apply existsb_exists in E as (c & Hc & E). apply in_map_iff in Hc as (s & <- & Hs). destruct (Hh s Hs) as (H1 & (q & Hq' & _) & _).
    unfold noKey in E. rewrite H1 in E. cbn [orb] in E. apply andb_true_iff in E as [E1 E2]. unfold requests, hidden in Hq'. apply Z.eqb_eq in E1. rewrite E1 in Hq'. cbn in Hq'. rewrite app_nil_r in Hq'. destruct (cl_vals (cl s)); [destruct Hq'|discriminate]. }
  assert (Hhold : existsb noKey (map cl conds) = false -> forall r s, In s conds -> In r table -> _) by (intros Hk r s Hs Hr; exact (holds_text compareFn HK build read dflt addTo attach table doc curKeyOrdering useAlt posn qsort conds Hqs Hne HC HW HM HF Hkind joinFn Hjoin V (HV Hk) r s Hs Hr)).
  assert (Hans : existsb noKey (map cl conds) = false -> forall r s q d, In s conds -> snd s = Some q -> In r table -> doc (fst s) r = Some d -> _) by (intros Hk r s q d Hs Eq Hr Hd; exact (row_answer compareFn HK build read dflt addTo attach table doc curKeyOrdering useAlt posn qsort conds Hqs Hne HC HW HM HF Hkind joinFn Hjoin V (HV Hk) r s q d Hs Eq Hr Hd)).
  cbv beta in Hhold, Hans.
  exists out. split; [exact Hq|]. split; [exact Hnd|]. split.
  - intros p re Hin. assert (Hin' : In p (map fst out)) by (apply in_map_iff; exists (p, re); auto). apply Hp in Hin' as (r & Hr & <- & Hs). exists r. split; [exact Hr|]. split; [reflexivity|].
    assert (Hh : forall s, In s conds -> holds dflt (V r) (cl s)) by (intros s Hsc; apply Hsat; [exact Hsc|]; apply Hs; apply in_map; exact Hsc).
    pose proof (Hkey r Hh) as Hk. specialize (Hre r re Hr Hin). split.
    + intros s Hsc. destruct (Hhold Hk r s Hsc Hr) as [H1 _]. destruct (H1 (Hh s Hsc)) as (d & Ed & Ea). exists d. split; [exact Ed|]. intros ->. destruct (snd s) as [q|] eqn:Eq.
      * destruct (Hans Hk r s q d Hsc Eq Hr Ed) as [[_ A] _]. cbn [tsmatches]. apply A; [exact Ea|]. destruct (snd (answer build read posn qsort V r s)) eqn:Es; [|reflexivity]. exfalso. assert (false = true); [|discriminate]. apply Hre. exists (cl s). split; [apply in_map; exact Hsc|]. split; [|exact Es].
        exact (Hdn s Hsc).
      * exfalso. unfold answer, text_clause, textClause in Ea. rewrite Eq in Ea. cbn [cl_cons] in Ea. destruct posn; discriminate.
    + intros Hpo ->. destruct (proj1 Hre eq_refl) as (c & Hc & _ & Er). apply in_map_iff in Hc as (s & <- & Hsc). destruct (Hhold Hk r s Hsc Hr) as [H1 _]. destruct (H1 (Hh s Hsc)) as (d & Ed & Ea). destruct (snd s) as [q|] eqn:Eq.
      * exists s, q, d. split; [exact Hsc|]. split; [exact Eq|]. split; [exact Ed|]. destruct (Hans Hk r s q d Hsc Eq Hr Ed) as [_ B]. exact (B Hpo Er).
      * exfalso. unfold answer, text_clause, textClause in Ea. rewrite Eq in Ea. cbn [cl_cons] in Ea. destruct posn; discriminate.
  - intros r Hr Hm. assert (Hk : existsb noKey (map cl conds) = false).
    { destruct (existsb noKey _) eqn:E; [|reflexivity]. exfalso. apply existsb_exists in E as (c & Hc & E). apply in_map_iff in Hc as (s & <- & Hs).
      pose proof (nokey_spec build read dflt table doc posn qsort conds Hqs s r Hs Hr (Hm s Hs)) as Hnk. fold cl in Hnk. congruence. }
    assert (Hin : In (r_tid r) (map fst out)).
    { apply Hp. exists r. split; [exact Hr|]. split; [reflexivity|]. intros c Hc. apply in_map_iff in Hc as (s & <- & Hs). apply Hsat; [exact Hs|]. destruct (Hm s Hs) as (d & Ed & Hd). destruct (Hhold Hk r s Hs Hr) as [_ H2]. exact (H2 d Ed Hd). }
    apply in_map_iff in Hin as ([p re] & E & Hin). cbn in E. subst p. exists re. exact Hin.
Qed.
