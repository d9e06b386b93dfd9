(** Extraction of query keys and of document keys; pre-filter. *)
From Coq Require Import Lia ZifyN Sorted Permutation.
From Verif Require Import Base Ord OrdProof Codec PosCodec PosSpec PosProof Tsq TsqSpec TsqProof TsqPhrase TsqExec.
Local Open Scope Z_scope.

(** *** pre-filter *)
Section Pre.
Variables (map : list nat) (check : list bool).
Lemma pre_phrase q : forall need i, fst (pg_phrase_execute (pre_checkcondition_rum map check) need i q) <> TNo.
Proof.
  induction q as [o|a IH|l IHl r IHr|l IHl r IHr|n l IHl r IHr]; intros need i; cbn [pg_phrase_execute].
  - unfold pre_checkcondition_rum. rewrite orb_true_r. cbn. discriminate.
  - cbn. discriminate.
  - specialize (IHl need (S i + qsize r)%nat). destruct (pg_phrase_execute _ need _ l) as [lm n1].
    specialize (IHr n1 (S i)). destruct (pg_phrase_execute _ n1 _ r) as [rm n2]. cbn in *. destruct lm, rm; cbn; congruence.
  - specialize (IHl need (S i + qsize r)%nat). destruct (pg_phrase_execute _ need _ l) as [lm n1].
    specialize (IHr n1 (S i)). destruct (pg_phrase_execute _ n1 _ r) as [rm n2]. cbn in *. destruct lm, rm; cbn; congruence.
  - specialize (IHl need (S i + qsize r)%nat). destruct (pg_phrase_execute _ need _ l) as [lm n1].
    specialize (IHr n1 (S i)). destruct (pg_phrase_execute _ n1 _ r) as [rm n2]. cbn in *. destruct lm, rm; cbn; congruence.
Qed.
Lemma pre_execute d q : forall need i,
  placed (fun i o => (exists w ps, In (w, ps) d /\ asks_for o w) -> nth (nth i map O) check false = true) i q ->
  fst (pg_TS_execute (pre_checkcondition_rum map check) need i q) = TNo -> ~ matches d q.
Proof.
  induction q as [o|a IH|l IHl r IHr|l IHl r IHr|n l IHl r IHr]; intros need i Hp; cbn [pg_TS_execute placed matches] in *.
  - unfold pre_checkcondition_rum. destruct (need || _ || _); [cbn; discriminate|]. cbn [fst].
    destruct (nth (nth i map O) check false); [discriminate|]. intros _ (w & ps & Hi & Ha & _).
    discriminate Hp. eauto.
  - cbn. discriminate.
  - destruct Hp as [Hpr Hpl]. specialize (IHl need _ Hpl). destruct (pg_TS_execute _ need _ l) as [lm n1].
    specialize (IHr n1 _ Hpr). destruct (pg_TS_execute _ n1 _ r) as [rm n2]. cbn in *.
    destruct lm, rm; cbn; intros; try discriminate; tauto.
  - destruct Hp as [Hpr Hpl]. specialize (IHl need _ Hpl). destruct (pg_TS_execute _ need _ l) as [lm n1].
    specialize (IHr n1 _ Hpr). destruct (pg_TS_execute _ n1 _ r) as [rm n2]. cbn in *.
    destruct lm, rm; cbn; intros; try discriminate; tauto.
  - intros H. exfalso. exact (pre_phrase (QPhrase n l r) need i H).
Qed.
End Pre.

(** *** words *)
Lemma wc_eq a : forall b, word_compare a b = 0 <-> a = b.
Proof.
  induction a as [|x a IH]; intros [|y b]; cbn; try (split; congruence).
  destruct (N.eqb_spec x y) as [->|Hn].
  - rewrite IH. split; congruence.
  - destruct (x <? y)%N; split; try lia; congruence.
Qed.
Lemma wc_trans a : forall b c, word_compare a b <= 0 -> word_compare b c <= 0 -> word_compare a c <= 0.
Proof.
  induction a as [|x a IH]; intros [|y b] [|z c]; cbn; try lia.
  destruct (N.eqb_spec x y), (N.eqb_spec y z), (N.eqb_spec x z); subst; try congruence; try (intros; eapply IH; eassumption);
    try (destruct (N.ltb_spec x y)); try (destruct (N.ltb_spec y z)); try (destruct (N.ltb_spec x z)); try lia. destruct (N.ltb_spec z y); lia.
Qed.
Lemma wc_antisym a b : word_compare a b <= 0 -> word_compare b a <= 0 -> a = b.
Proof.
  revert b. induction a as [|x a IH]; intros [|y b]; cbn; try lia; try reflexivity.
  rewrite (N.eqb_sym y x). destruct (N.eqb_spec x y) as [->|H].
  - intros A B. f_equal. apply IH; assumption.
  - destruct (N.ltb_spec x y), (N.ltb_spec y x); lia.
Qed.

Notation wle := (fun a b => word_compare (o_word a) (o_word b) <= 0).
Lemma uniq_spec l : forall prev, StronglySorted wle (prev :: l) ->
  (forall o, In o (uniq_from prev l) -> In o (prev :: l)) /\
  (forall o, In o (prev :: l) -> exists o', In o' (uniq_from prev l) /\ o_word o' = o_word o) /\
  NoDup (map o_word (uniq_from prev l)) /\
  (exists r, uniq_from prev l = prev :: r).
Proof.
  induction l as [|x l IH]; intros prev Hs; cbn [uniq_from].
  - split; [tauto|]. split; [intros o Ho; exists o; auto|]. split; [repeat constructor; cbn; tauto|eauto].
  - inversion Hs as [|? ? Hs' Hx]; subst. inversion Hs' as [|? ? Hs2 Hx2]; subst.
    destruct (Z.eqb_spec (word_compare (o_word x) (o_word prev)) 0) as [E|E].
    + apply wc_eq in E. assert (StronglySorted wle (prev :: l)) as Hsp.
      { constructor; [exact Hs2|]. inversion Hx; assumption. }
      destruct (IH prev Hsp) as (A & B & C & D). split; [|split; [|split; [exact C|exact D]]].
      * intros o Ho. specialize (A o Ho). cbn in *. tauto.
      * intros o [<-|[<-|Ho]]; [apply B; left; reflexivity|rewrite E; apply B; left; reflexivity|apply B; right; exact Ho].
    + destruct (IH x Hs') as (A & B & C & D). split; [|split; [|split; [|eauto]]].
      * intros o [<-|Ho]; [left; reflexivity|right; apply A; exact Ho].
      * intros o [<-|Ho]; [exists prev; cbn; auto|]. destruct (B o Ho) as (o' & Hi & Hw). exists o'. cbn; auto.
      * cbn. constructor; [|exact C]. intros Hi. apply in_map_iff in Hi. destruct Hi as (o & Hw & Ho). apply A in Ho.
        inversion Hx as [|? ? Hpx Hpl]; subst.
        assert (word_compare (o_word x) (o_word o) <= 0) as Hxo.
        { destruct Ho as [<-|Ho]; [rewrite (proj2 (wc_eq _ _) eq_refl); lia|]. rewrite Forall_forall in Hx2. apply Hx2; exact Ho. }
        apply E, wc_eq, wc_antisym; [rewrite <- Hw; exact Hxo|exact Hpx].
Qed.
Lemma sort_uniq qsort q : sorts_words qsort ->
  let ents := SortAndUniqItems qsort q in
  (forall o, In o ents -> In o (operands q)) /\
  (forall o, In o (operands q) -> exists o', In o' ents /\ o_word o' = o_word o) /\
  NoDup (map o_word ents).
Proof.
  intros Hq. unfold SortAndUniqItems. destruct (operands q) as [|a [|b l]] eqn:E.
  - cbn. repeat split; try tauto. constructor.
  - cbn. split; [tauto|]. split; [intros o Ho; exists o; auto|]. repeat constructor; cbn; tauto.
  - rewrite <- E. destruct (Hq (operands q)) as [Hp Hs]. destruct (qsort (operands q)) as [|o r] eqn:Eq.
    + apply Permutation_sym, Permutation_nil in Hp. rewrite E in Hp. discriminate.
    + destruct (uniq_spec r o Hs) as (A & B & C & _). cbn zeta. split; [|split; [|exact C]].
      * intros x Hx. apply (Permutation_in _ (Permutation_sym Hp)). apply A. exact Hx.
      * intros x Hx. apply B. apply (Permutation_in _ Hp). exact Hx.
Qed.
Lemma find_spec ents w : (exists o, In o ents /\ o_word o = w) ->
  exists j e, find_operand ents w = Some j /\ nth_error ents j = Some e /\ o_word e = w.
Proof.
  induction ents as [|e ents IH]; intros [o [Hi Hw]]; [destruct Hi|]. cbn [find_operand].
  destruct (Z.eqb_spec (word_compare (o_word e) w) 0) as [E|E].
  - apply wc_eq in E. exists O, e. auto.
  - destruct Hi as [->|Hi]; [rewrite (proj2 (wc_eq _ _) Hw) in E; congruence|].
    destruct IH as (j & e' & Hf & Hn & Hw'); [eauto|]. exists (S j), e'. rewrite Hf. auto.
Qed.
Lemma fill_spec ents its : (forall o, In (Some o) its -> exists o', In o' ents /\ o_word o' = o_word o) ->
  exists m, fill_map ents its = Some m /\ length m = length its /\
    forall k o, nth_error its k = Some (Some o) -> exists e, nth_error ents (nth k m O) = Some e /\ o_word e = o_word o.
Proof.
  induction its as [|[o|] its IH]; intros H; cbn [fill_map].
  - exists []. repeat split. intros [|k] o Hk; discriminate.
  - destruct (find_spec ents (o_word o)) as (j & e & Hf & Hn & Hw); [apply H; left; reflexivity|].
    destruct IH as (m & Hm & Hl & Hk); [intros o' Ho'; apply H; right; exact Ho'|].
    exists (j :: m). rewrite Hf, Hm. split; [reflexivity|]. split; [cbn; lia|].
    intros [|k] o' Ho'; cbn in *; [injection Ho' as <-; exists e; auto|apply Hk; exact Ho'].
  - destruct IH as (m & Hm & Hl & Hk); [intros o' Ho'; apply H; right; exact Ho'|].
    exists (O :: m). rewrite Hm. split; [reflexivity|]. split; [cbn; lia|].
    intros [|k] o' Ho'; cbn in *; [discriminate|apply Hk; exact Ho'].
Qed.
Lemma in_operands q o : In o (operands q) <-> In (Some o) (items q).
Proof.
  unfold operands. rewrite in_flat_map. split.
  - intros ([x|] & Hi & Ho); [destruct Ho as [<-|[]]; exact Hi|destruct Ho].
  - intros Hi. exists (Some o). cbn; auto.
Qed.
Lemma in_items q o : In (Some o) (items q) <-> in_query o q.
Proof.
  induction q as [x|a IH|l IHl r IHr|l IHl r IHr|n l IHl r IHr]; cbn [items in_query In]; rewrite ?in_app_iff.
  - split; [intros [H|[]]; congruence|intros ->; auto].
  - rewrite IH. split; [intros [H|H]; [discriminate|exact H]|auto].
  - rewrite IHl, IHr. split; [intros [H|[H|H]]; [discriminate|auto|auto]|tauto].
  - rewrite IHl, IHr. split; [intros [H|[H|H]]; [discriminate|auto|auto]|tauto].
  - rewrite IHl, IHr. split; [intros [H|[H|H]]; [discriminate|auto|auto]|tauto].
Qed.

Lemma extract_query_spec {K} (build : list N -> K) qsort q : sorts_words qsort ->
  exists ents m, rum_extract_tsquery_internal build qsort q = Some (map (fun e => (build (o_word e), o_prefix e)) ents, m) /\
    NoDup (map o_word ents) /\ length m = qsize q /\ (forall o, In o ents -> in_query o q) /\
    forall k o, nth_error (items q) k = Some (Some o) ->
      exists e, nth_error ents (nth k m O) = Some e /\ o_word e = o_word o.
Proof.
  intros Hq. destruct (sort_uniq qsort q Hq) as (A & B & C). unfold rum_extract_tsquery_internal.
  set (ents := SortAndUniqItems qsort q) in *.
  destruct (fill_spec ents (items q)) as (m & Hm & Hl & Hk).
  { intros o Ho. apply B, in_operands, Ho. }
  exists ents, m. rewrite Hm. split; [reflexivity|]. split; [exact C|]. split; [rewrite Hl; apply items_len|].
  split; [|exact Hk]. intros o Ho. apply in_items, in_operands, A, Ho.
Qed.

(** *** attached values of a row *)
Definition covers (sel : list (list N)) (l : list N) : Prop :=
  pos_list l /\ l <> [] /\ (forall e, In e l -> exists li, In li sel /\ In e li) /\
  (forall li e, In li sel -> In e li -> exists e', In e' l /\ position e' = position e).
Lemma join_covers sel : forall done l, Forall (fun li => pos_list li /\ li <> []) sel -> covers done l ->
  exists l', join_all (Some (compress_pos l)) (map (fun li => Some (compress_pos li)) sel) = Some (Some (compress_pos l')) /\
    covers (done ++ sel) l'.
Proof.
  induction sel as [|x sel IH]; intros done l Hf (H1 & H2 & H3 & H4); cbn [map join_all].
  - exists l. rewrite app_nil_r. repeat split; auto; apply H1.
  - inversion Hf as [|? ? [Px Nx] Hf']; subst. cbn [join_add].
    rewrite (join_merge l x H1 Px H2 Nx).
    destruct (join_spec l x H1 Px H2 Nx) as (bs & l' & E & R & P & _ & Hin).
    rewrite (join_merge l x H1 Px H2 Nx) in E. injection E as <-.
    assert (l' = jmerge l x) as ->.
    { assert (pos_list (jmerge l x)) as Pj.
      { assert (S1 := proj1 (ssorted_pos _) (proj2 H1)). assert (S2 := proj1 (ssorted_pos _) (proj2 Px)).
        split; [|apply ssorted_pos; apply merge_sorted; [apply pcmp_total|assumption|assumption]].
        apply Forall_forall. intros p Hp. apply merge_incl in Hp.
        destruct H1 as [H1 _], Px as [Px _]. rewrite Forall_forall in H1, Px. destruct Hp; auto. }
      destruct (pos_roundtrip _ Pj) as (R' & _). rewrite R in R'. injection R' as ->. reflexivity. }
    destruct (IH (done ++ [x]) (jmerge l x) Hf') as (l'' & E & C).
    { split; [exact P|]. split.
      - destruct l as [|p l]; [congruence|]. intros Hn. assert (In p (jmerge (p :: l) x)) as Hi by (apply Hin; left; left; reflexivity).
        rewrite Hn in Hi. destruct Hi.
      - split.
        + intros e He. apply Hin in He. destruct He as [He|[He _]].
          * destruct (H3 e He) as (li & Hi & He'). exists li. rewrite in_app_iff. auto.
          * exists x. rewrite in_app_iff. cbn. auto.
        + intros li e Hi He. apply in_app_iff in Hi. destruct Hi as [Hi|[<-|[]]].
          * destruct (H4 li e Hi He) as (e' & He' & Hp). exists e'. split; [apply Hin; left; exact He'|exact Hp].
          * destruct (in_dec N.eq_dec (position e) (List.map position l)) as [Hy|Hn].
            -- apply in_map_iff in Hy. destruct Hy as (e' & Hp & He'). exists e'. split; [apply Hin; left; exact He'|exact Hp].
            -- exists e. split; [|reflexivity]. apply Hin. right. split; [exact He|]. intros q' Hq' Hp. apply Hn.
               apply in_map_iff. exists q'. auto. }
    rewrite E. exists l''. split; [reflexivity|]. rewrite <- app_assoc in C. exact C.
Qed.

Lemma found_reports d o present add : valid_doc d -> stripped_alike d o -> weights_clear d o ->
  found (asks_for o) (rum_extract_tsvector_internal (fun w => w) d) present add -> reports d o present add.
Proof.
  intros [Hnd Hv] Hal Hwc (sel & Hsel & Hpres & Hjoin).
  assert (forall w a, In (w, a) sel <-> exists ps, In (w, ps) d /\ a = option_map compress_pos ps /\ asks_for o w) as Hsel'.
  { intros w a. rewrite Hsel. unfold rum_extract_tsvector_internal. rewrite in_map_iff. cbn [fst]. split.
    - intros [([w' ps] & E & Hi) Ha]. injection E as <- <-. eauto.
    - intros (ps & Hi & -> & Ha). split; [exists (w, ps); auto|exact Ha]. }
  assert (sel <> [] <-> exists w ps, In (w, ps) d /\ asks_for o w) as Hex.
  { split.
    - destruct sel as [|[w a] sel]; [congruence|]. intros _. destruct (proj1 (Hsel' w a)) as (ps & Hi & _ & Ha); [left; reflexivity|]. eauto.
    - intros (w & ps & Hi & Ha) ->. destruct (proj2 (Hsel' w (option_map compress_pos ps))); eauto. }
  split; [rewrite Hpres; exact Hex|].
  intros Hp. apply Hpres in Hp.
  destruct (strippedb d o) eqn:Es.
  - apply strippedb_ok in Es. assert (forall e, In e sel -> snd e = None) as Hall.
    { intros [w a] He. apply Hsel' in He. destruct He as (ps & Hi & -> & Ha). rewrite (Hal Es w ps Hi Ha). reflexivity. }
    assert (add = None) as ->.
    { clear - Hjoin Hall. assert (forall l : list (list N * option (list byte)), (forall e, In e l -> snd e = None) -> join_all None (map snd l) = Some None) as Hg.
      { induction l as [|e l IH]; intros H; cbn; [reflexivity|]. rewrite (H (e)) by (left; reflexivity). cbn. apply IH. intros; apply H; right; assumption. }
      rewrite (Hg sel Hall) in Hjoin. congruence. }
    split; [tauto|]. discriminate.
  - assert (~ stripped d o) as Hns by (intros H; apply strippedb_ok in H; congruence).
    assert (exists lists, map snd sel = map (fun li => Some (compress_pos li)) lists /\
      (forall li, In li lists <-> exists w, In (w, Some li) d /\ asks_for o w) ) as (lists & Em & Hl).
    { clear Hjoin Hpres Hex Hp.
      assert (forall sel', (forall e, In e sel' -> In e sel) -> exists lists, map snd sel' = map (fun li => Some (compress_pos li)) lists /\
        (forall li, In li lists -> exists w, In (w, Some li) d /\ asks_for o w) /\ (forall w a, In (w, a) sel' -> exists li, In li lists /\ In (w, Some li) d)) as G.
      { induction sel' as [|[w a] sel' IH]; intros Hin.
        - exists []. cbn. repeat split; tauto.
        - destruct (proj1 (Hsel' w a)) as (ps & Hi & -> & Ha); [apply Hin; left; reflexivity|].
          destruct ps as [li|]; [|exfalso; apply Hns; exists w; auto].
          destruct IH as (lists & E & A & B); [intros e He; apply Hin; right; exact He|].
          exists (li :: lists). cbn. rewrite E. split; [reflexivity|]. split.
          + intros li' [<-|H]; eauto.
          + intros w' a' [E'|H]; [injection E' as <- <-; exists li; auto|]. destruct (B w' a' H) as (li' & H1 & H2). exists li'; auto. }
      destruct (G sel (fun e H => H)) as (lists & E & A & B). exists lists. split; [exact E|].
      intros li. split; [apply A|]. intros (w & Hi & Ha).
      destruct (B w (Some (compress_pos li))) as (li' & H1 & H2); [apply Hsel'; exists (Some li); auto|].
      assert (Some li = Some li') as Eq.
      { clear - Hnd Hi H2. induction d as [|[w0 p0] dd IH]; [destruct Hi|]. cbn in Hnd. inversion Hnd as [|? ? Hni Hnd']; subst.
        destruct Hi as [E1|Hi], H2 as [E2|H2].
        - congruence.
        - injection E1 as -> ->. exfalso. apply Hni. apply in_map_iff. exists (w, Some li'). auto.
        - injection E2 as -> ->. exfalso. apply Hni. apply in_map_iff. exists (w, Some li). auto.
        - apply IH; assumption. }
      injection Eq as ->. exact H1. }
    assert (lists <> []) as Hne.
    { intros ->. destruct sel; [congruence|discriminate]. }
    assert (Forall (fun li => pos_list li /\ li <> []) lists) as Hf.
    { apply Forall_forall. intros li Hi. apply Hl in Hi. destruct Hi as (w & Hi & _). destruct (Hv w li Hi) as (A & B & _). auto. }
    destruct lists as [|l0 lists]; [congruence|]. inversion Hf as [|? ? [P0 N0] Hf']; subst.
    rewrite Em in Hjoin. cbn [map join_all join_add] in Hjoin.
    destruct (join_covers lists [l0] l0 Hf') as (lf & E & C1 & C2 & C3 & C4).
    { split; [exact P0|]. split; [exact N0|]. split; [intros e He; exists l0; cbn; auto|]. intros li e [<-|[]] He. exists e. auto. }
    rewrite E in Hjoin. injection Hjoin as <-.
    split; [split; [discriminate|intros H; contradiction]|]. intros bs Ebs. injection Ebs as <-.
    exists lf. destruct (pos_roundtrip lf C1) as (R & _). split; [exact R|]. split; [exact C2|].
    assert (forall e, In e lf -> exists w li, In (w, Some li) d /\ asks_for o w /\ In e li) as Horig.
    { intros e He. destruct (C3 e He) as (li & Hi & He'). apply Hl in Hi. destruct Hi as (w & Hi & Ha). eauto. }
    split.
    { apply Forall_forall. intros e He. destruct (Horig e He) as (w & li & Hi & _ & He'). destruct (Hv w li Hi) as (_ & _ & F).
      rewrite Forall_forall in F. apply F; exact He'. }
    split; [apply C1|]. intros p. split.
    + intros (e & He & Hw & ->). destruct (Horig e He) as (w & li & Hi & Ha & He'). exists w, li, e. auto.
    + intros (w & li & e & Hi & Ha & He & Hw & ->).
      destruct (C4 li e) as (e' & He' & Hpos); [apply Hl; eauto|exact He|].
      exists e'. split; [exact He'|]. split; [|rewrite Hpos; reflexivity].
      destruct Hwc as [H0|Hwc]; [left; exact H0|].
      destruct (Horig e' He') as (w' & li' & Hi' & Ha' & He'').
      rewrite (Hwc w' li' w li e' e Hi' Hi Ha' Ha He'' He Hpos). exact Hw.
Qed.
Lemma exact_operand_restrictions d o : valid_doc d -> o_prefix o = false -> stripped_alike d o /\ weights_clear d o.
Proof.
  intros [Hnd Hv] Hp.
  assert (forall w a b, In (w, a) d -> In (w, b) d -> a = b) as Huniq.
  { clear - Hnd. intros w a b Ha Hb. induction d as [|[w0 p0] dd IH]; [destruct Ha|]. cbn in Hnd. inversion Hnd as [|? ? Hni Hnd']; subst.
    destruct Ha as [E1|Ha], Hb as [E2|Hb].
    - congruence.
    - injection E1 as -> ->. exfalso. apply Hni. apply in_map_iff. exists (w, b). auto.
    - injection E2 as -> ->. exfalso. apply Hni. apply in_map_iff. exists (w, a). auto.
    - apply IH; assumption. }
  unfold stripped_alike, weights_clear, stripped, asks_for. rewrite Hp. split.
  - intros (w & Hi & ->) w' ps Hi' ->. symmetry. eapply Huniq; eassumption.
  - right. intros w l w' l' e e' Hi Hi' -> -> He He' Hpos.
    assert (Some l = Some l') as E by (eapply Huniq; eassumption). injection E as <-.
    destruct (Hv _ _ Hi) as (P & _). apply (ssorted_unique pcmp pcmp_total l e e' (proj1 (ssorted_pos _) (proj2 P)) He He').
    unfold pcmp. lia.
Qed.
