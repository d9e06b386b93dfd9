(** The three page changes of an insertion keep the invariant: rewriting one page, splitting a
    page that is not the root, splitting the root. *)
From Verif Require Import Ord BTree BTreeInv BTreeFind BTreeParent.
From Coq Require Import List ZArith Bool Arith Lia.
Import ListNotations.

Fixpoint ins_after (b r : nat) (L : list nat) : list nat :=
  match L with
  | [] => []
  | a :: L' => if a =? b then a :: r :: L' else a :: ins_after b r L'
  end.
Lemma ins_after_in b r L x : In x (ins_after b r L) <-> In x L \/ (x = r /\ In b L).
Proof.
  induction L as [|a L IH]; simpl; [tauto|]. destruct (Nat.eqb_spec a b) as [->|Hn]; simpl; [intuition congruence|].
  rewrite IH. intuition congruence.
Qed.
Lemma ins_after_id b r L : ~ In b L -> ins_after b r L = L.
Proof.
  induction L as [|a L IH]; simpl; [auto|]. intro H. destruct (Nat.eqb_spec a b) as [->|Hn]; [tauto|]. rewrite IH; tauto.
Qed.
Lemma ins_after_split b r L1 L2 : ~ In b L1 -> ins_after b r (L1 ++ b :: L2) = L1 ++ b :: r :: L2.
Proof.
  induction L1 as [|a L IH]; simpl; intro H; [rewrite Nat.eqb_refl; reflexivity|].
  destruct (Nat.eqb_spec a b) as [->|Hn]; [tauto|]. rewrite IH; tauto.
Qed.
Lemma ins_after_nodup b r L : NoDup L -> ~ In r L -> NoDup (ins_after b r L).
Proof.
  induction L as [|a L IH]; simpl; intros N Hr; [constructor|]. inversion N as [|? ? Ha N']; subst.
  destruct (Nat.eqb_spec a b) as [->|Hn].
  - constructor; [simpl; intuition congruence|]. constructor; tauto.
  - constructor; [|apply IH; tauto]. rewrite ins_after_in. intuition congruence.
Qed.
Lemma ins_levels_in b r (l : list (list nat)) x :
  In x (concat (map (ins_after b r) l)) <-> In x (concat l) \/ (x = r /\ In b (concat l)).
Proof.
  induction l as [|L l IH]; simpl; [tauto|]. rewrite !in_app_iff, ins_after_in, IH. tauto.
Qed.
Lemma ins_levels_nodup b r (l : list (list nat)) : NoDup (concat l) -> ~ In r (concat l) ->
  NoDup (concat (map (ins_after b r) l)).
Proof.
  induction l as [|L l IH]; simpl; intros N Hr; [constructor|].
  apply nodup_app in N as (N1 & N2 & D). rewrite in_app_iff in Hr.
  apply nodup_app. split; [apply ins_after_nodup; tauto|]. split; [apply IH; tauto|].
  intros x H1 H2. apply ins_after_in in H1. apply ins_levels_in in H2.
  destruct H1 as [H1|[-> H1]], H2 as [H2|[E H2]].
  - eauto.
  - subst x. tauto.
  - tauto.
  - eauto.
Qed.

Section Split.
  Context {T : Type}.
  Variable cmp : T -> T -> Z.
  Hypothesis OK : total_cmp cmp.
  Variable ifit : list (T * nat) -> Prop.
  Variable lbound : bool.
  Variable ok : T -> Prop.
  Variable fit : list T -> Prop.

  Notation page := (page T).
  Notation store := (list page).
  Notation Inv := (Inv cmp ifit lbound ok fit).
  Notation body := (body cmp ifit lbound ok fit).
  Notation ble := (ble cmp).
  Notation blt := (blt cmp).

  Lemma body_mono tight (G G' : @ghost T) h lo hi pg :
    (forall h' x, h = S h' -> at_ G h' x -> at_ G' h' x /\ slo G' x = slo G x /\ ble (shi G' x) (shi G x)) ->
    body tight G h lo hi pg -> body tight G' h lo hi pg.
  Proof using OK.
    intros HG. destruct h as [|h]; [auto|]. cbn [BTreeInv.body]. intros (A & B & C & D & E & kc & d & F & F').
    specialize (fun x => HG h x eq_refl). rewrite Forall_forall in C.
    split; [exact A|]. split; [exact B|]. split; [apply Forall_forall; intros x Hx; apply HG, C, Hx|].
    split.
    - eapply (dok_ext cmp OK); [|exact D]. intros x Hx. destruct (HG _ (C _ Hx)) as (_ & H1 & H2). auto.
    - split; [exact E|]. exists kc, d. split; [exact F|]. rewrite F'. symmetry. apply HG, C. rewrite F. left; reflexivity.
  Qed.

  Definition same_links (st st' : store) (x : nat) : Prop :=
    forall pg, get st x = Some pg -> exists pg', get st' x = Some pg' /\ p_left pg' = p_left pg /\ p_right pg' = p_right pg.
  Lemma links_ext st st' : forall L prv, (forall x, In x L -> same_links st st' x) ->
    links st prv L -> links st' prv L.
  Proof.
    induction L as [|b L IH]; intros prv Hs H; [exact I|]. destruct H as (pg & Hg & Hl & Hr & H).
    destruct (Hs b (or_introl eq_refl) pg Hg) as (pg' & Hg' & El & Er). exists pg'.
    split; [exact Hg'|]. split; [congruence|]. split; [congruence|]. apply IH; auto. intros x Hx. apply Hs. right; exact Hx.
  Qed.

  (** same rows, up to the rows [used] added *)
  Definition rows_add (st : store) (G : @ghost T) (st' : store) (G' : @ghost T) (used : list T) : Prop :=
    forall x, In x (contents st' G') <-> In x (contents st G) \/ In x used.
  (** the same with rows [gone] taken away *)
  Definition rows_chg (st : store) (G : @ghost T) (st' : store) (G' : @ghost T) (gone : T -> bool) (used : list T) : Prop :=
    forall x, In x (contents st' G') <-> (In x (contents st G) /\ gone x = false) \/ In x used.
  (** a page's rows change by [gone] and [used] *)
  Definition page_chg (old new : list T) (gone : T -> bool) (used : list T) : Prop :=
    forall x, In x new <-> (In x old /\ gone x = false) \/ In x used.
  (** rows of other leaves than [b] stay *)
  Definition stay (st : store) (G : @ghost T) (b : nat) (gone : T -> bool) : Prop :=
    forall c pc x, at_ G 0 c -> c <> b -> get st c = Some pc -> In x (p_items pc) -> gone x = false.

  Lemma contents_in' tight st root G x : Inv tight st root G ->
    (In x (contents st G) <-> exists b pg, at_ G 0 b /\ get st b = Some pg /\ In x (p_items pg)).
  Proof. intro HI. apply (contents_in cmp ifit lbound ok fit tight st root G HI). Qed.

  (** ** rewriting a page *)
  Section Rewrite.
    Context (tight : bool) (st : store) (root : nat) (G : @ghost T).
    Hypothesis HI : Inv tight st root G.
    Context (h b : nat) (pg : page) (items' : list T) (downs' : list (T * nat)).
    Hypothesis Hat : at_ G h b.
    Hypothesis Hg : get st b = Some pg.
    Let pg' := mkPage (p_leaf pg) items' downs' (p_bound pg) (p_left pg) (p_right pg) (p_deleted pg).
    Let st' := set_page st b pg items' downs'.

    Lemma set_page_same : get st' b = Some pg'.
    Proof. unfold st', set_page, get. apply nth_upd_same. eapply nth_some_lt; exact Hg. Qed.
    Lemma set_page_other x : x <> b -> get st' x = get st x.
    Proof. intro Hn. unfold st', set_page, get. apply nth_upd_other. auto. Qed.

    Lemma set_page_inv : body tight G h (slo G b) (shi G b) pg' -> Inv tight st' root G.
    Proof.
      intro Hb. constructor.
      - apply (I_top _ _ _ _ _ _ _ _ _ HI).
      - apply (I_nodup _ _ _ _ _ _ _ _ _ HI).
      - intros h0 L HL. eapply links_ext; [|exact (I_links _ _ _ _ _ _ _ _ _ HI _ _ HL)].
        intros x _ px Hx. destruct (Nat.eq_dec x b) as [->|Hn].
        + exists pg'. rewrite set_page_same. rewrite Hg in Hx. injection Hx as <-. auto.
        + exists px. rewrite set_page_other; auto.
      - intros h0 x Hx. destruct (Nat.eq_dec x b) as [->|Hn].
        + assert (h0 = h) as -> by exact (at_inj _ _ _ _ _ _ _ _ _ HI _ _ _ Hx Hat).
          destruct (page_facts cmp ifit lbound ok fit tight st root G HI _ _ _ Hat Hg) as (A & B & C & D & E & _).
          exists pg'. rewrite set_page_same. repeat split; auto; apply E; assumption.
        + destruct (I_page _ _ _ _ _ _ _ _ _ HI _ _ Hx) as (px & Hgx & F). exists px. rewrite set_page_other by auto. auto.
    Qed.
    Lemma set_page_chg gone used : Inv tight st' root G -> stay st G b gone ->
      (h = 0 -> page_chg (p_items pg) items' gone used) -> (h <> 0 -> used = []) ->
      rows_chg st G st' G gone used.
    Proof.
      intros HI' Hs Hi Hu x. rewrite (contents_in' _ _ _ _ _ HI'), (contents_in' _ _ _ _ _ HI). split.
      - intros (c & pc & Hc & Hgc & Hx). destruct (Nat.eq_dec c b) as [->|Hn].
        + assert (h = 0) as E by exact (at_inj _ _ _ _ _ _ _ _ _ HI _ _ _ Hat Hc).
          rewrite set_page_same in Hgc. injection Hgc as <-. apply (Hi E) in Hx as [[Hx Hx']|Hx]; [|auto].
          left. split; [exists b, pg; auto|exact Hx'].
        + rewrite set_page_other in Hgc by auto. left. split; [eauto|]. exact (Hs c pc x Hc Hn Hgc Hx).
      - intros [[(c & pc & Hc & Hgc & Hx) Hx']|Hx].
        + destruct (Nat.eq_dec c b) as [->|Hn].
          * assert (h = 0) as E by exact (at_inj _ _ _ _ _ _ _ _ _ HI _ _ _ Hat Hc).
            exists b, pg'. rewrite set_page_same. rewrite Hg in Hgc. injection Hgc as <-.
            repeat split; auto. apply (Hi E). auto.
          * exists c, pc. rewrite set_page_other by auto. auto.
        + destruct (Nat.eq_dec h 0) as [E|E]; [|rewrite (Hu E) in Hx; destruct Hx].
          exists b, pg'. rewrite set_page_same. split; [rewrite <- E; exact Hat|]. split; [reflexivity|]. apply (Hi E). auto.
    Qed.
    Lemma set_page_rows used : Inv tight st' root G ->
      (h = 0 -> forall x, In x items' <-> In x (p_items pg) \/ In x used) -> (h <> 0 -> used = []) ->
      rows_add st G st' G used.
    Proof.
      intros HI' Hi Hu x. assert (Hp : h = 0 -> page_chg (p_items pg) items' (fun _ => false) used).
      { intros E y. rewrite (Hi E y). tauto. }
      pose proof (set_page_chg (fun _ => false) used HI' (fun _ _ _ _ _ _ _ => eq_refl) Hp Hu x) as K. cbn beta in K. tauto.
    Qed.
    Lemma set_page_complete X Y : complete_but st root G X ->
      (forall c k, In (k, c) (p_downs pg) -> exists k', In (k', c) downs') ->
      (forall c, X c -> ~ Y c -> exists hc k, h = S hc /\ at_ G hc c /\ In (k, c) downs') ->
      complete_but st' root G Y.
    Proof.
      intros Hc Hd Hn h0 x Hx Hxr HY.
      assert (D : X x \/ ~ X x -> exists p px k, at_ G (S h0) p /\ get st' p = Some px /\ In (k, x) (p_downs px)).
      { intros [HX|HX].
        - destruct (Hn x HX HY) as (hc & k & E & Hxc & Hin).
          assert (h0 = hc) by exact (at_inj _ _ _ _ _ _ _ _ _ HI _ _ _ Hx Hxc). subst hc.
          exists b, pg', k. rewrite set_page_same. rewrite <- E. auto.
        - destruct (Hc h0 x Hx Hxr HX) as (p & px & k & Hp & Hgp & Hin). destruct (Nat.eq_dec p b) as [->|Hnb].
          + rewrite Hg in Hgp. injection Hgp as <-. destruct (Hd _ _ Hin) as [k' Hk'].
            exists b, pg', k'. rewrite set_page_same. auto.
          + exists p, px, k. rewrite set_page_other by auto. auto. }
      (* membership in the exception set need not be decided: use the hypothesis directly *)
      destruct (in_dec Nat.eq_dec x (map snd downs')) as [Hin|Hnin].
      - apply in_map_iff in Hin as ([k c] & E & Hin). simpl in E. subst c.
        destruct (Nat.eq_dec h (S h0)) as [E|E].
        + exists b, pg', k. rewrite set_page_same. rewrite <- E. auto.
        + apply D. right. intro HX. destruct (Hn x HX HY) as (hc & k' & Eh & Hxc & _).
          apply E. rewrite Eh. f_equal. exact (at_inj _ _ _ _ _ _ _ _ _ HI _ _ _ Hxc Hx).
      - apply D. right. intro HX. destruct (Hn x HX HY) as (hc & k' & _ & _ & Hin). apply Hnin.
        change x with (snd (k', x)). apply in_map. exact Hin.
    Qed.
  End Rewrite.

  (** ** split of a page that is not the root *)
  Section NonRoot.
    Context (tight : bool) (st : store) (root : nat) (G : @ghost T).
    Hypothesis HI : Inv tight st root G.
    Context (h b : nat) (pg : page) (k : T) (li ri : list T) (ld rd : list (T * nat)) (zl zr : bnd T).
    Hypothesis Hat : at_ G h b.
    Hypothesis Hg : get st b = Some pg.
    Hypothesis Hbr : b <> root.
    Let r := length st.
    Let lp := mkPage (p_leaf pg) li ld k (p_left pg) (Some r) false.
    Let rp := mkPage (p_leaf pg) ri rd (p_bound pg) (Some b) (p_right pg) false.
    Let st' := fst (splitNonRoot st b pg k li ri ld rd).
    Definition splitG : @ghost T :=
      mkG (map (ins_after b r) (lv G))
          (fun x => if x =? r then zr else slo G x)
          (fun x => if x =? b then zl else if x =? r then shi G b else shi G x).
    Hypothesis H1 : blt (slo G b) zl.
    Hypothesis H2 : ble zl zr.
    Hypothesis H3 : ble zr (BAt k).
    Hypothesis H4 : h = 0 -> zr = BAt k.
    Hypothesis H5 : blt zr (shi G b).
    Hypothesis HL : body tight G h (slo G b) zl lp.
    Hypothesis HR : body tight G h zr (shi G b) rp.

    Lemma snr_b_lt : b < r.
    Proof. unfold r. eapply nth_some_lt. exact Hg. Qed.
    Lemma snr_get_r : get st' r = Some rp.
    Proof.
      unfold st', splitNonRoot. cbn [fst]. fold r. unfold set_left.
      assert (E : nth_error (upd st b lp ++ [rp]) r = Some rp).
      { rewrite nth_error_app2; rewrite upd_length; unfold r; [rewrite Nat.sub_diag; reflexivity|lia]. }
      destruct (p_right pg) as [b'|] eqn:Er; [|exact E].
      assert (Hb' : at_ G h b') by (eapply right_at; eauto).
      assert (b' < r) by (unfold r; exact (at_valid _ _ _ _ _ _ _ _ _ HI _ _ Hb')).
      destruct (get _ b'); [|exact E]. unfold get. rewrite nth_upd_other by lia. exact E.
    Qed.
    Lemma snr_right_ne b' : p_right pg = Some b' -> b' <> b.
    Proof.
      intros Er ->. destruct (at_split G _ _ Hat) as (L1 & L2 & HLv).
      pose proof (I_links _ _ _ _ _ _ _ _ _ HI _ _ HLv) as Hl. apply links_at in Hl as (pg' & Hg' & Hr' & _).
      rewrite Hg in Hg'. injection Hg' as <-. rewrite Er in Hr'. destruct L2 as [|c L2]; [discriminate|]. simpl in Hr'.
      injection Hr' as <-. pose proof (level_nodup _ _ _ _ _ _ _ _ _ HI _ _ HLv) as N.
      apply NoDup_remove_2 in N. apply N. apply in_app_iff. right; left; reflexivity.
    Qed.
    Lemma snr_get_b : get st' b = Some lp.
    Proof.
      pose proof snr_b_lt as Hlt. unfold st', splitNonRoot. cbn [fst]. fold r. unfold set_left.
      assert (E : nth_error (upd st b lp ++ [rp]) b = Some lp).
      { rewrite nth_error_app1; [|rewrite upd_length; exact Hlt]. apply nth_upd_same. exact Hlt. }
      destruct (p_right pg) as [b'|] eqn:Er; [|exact E].
      pose proof (snr_right_ne _ Er). destruct (get _ b'); [|exact E]. unfold get. rewrite nth_upd_other by auto. exact E.
    Qed.
    (** other pages keep everything but, for the right neighbour, the left link *)
    Lemma snr_get_other x px : x <> b -> get st x = Some px ->
      exists l', get st' x = Some (mkPage (p_leaf px) (p_items px) (p_downs px) (p_bound px) l' (p_right px) (p_deleted px)) /\
        ((p_right pg <> Some x /\ l' = p_left px) \/ (p_right pg = Some x /\ l' = Some r)).
    Proof.
      intros Hn Hx. assert (Hlt : x < r) by (unfold r; eapply nth_some_lt; exact Hx).
      unfold st', splitNonRoot. cbn [fst]. fold r. unfold set_left.
      assert (E : nth_error (upd st b lp ++ [rp]) x = Some px).
      { rewrite nth_error_app1; [|rewrite upd_length; exact Hlt]. rewrite nth_upd_other by auto. exact Hx. }
      destruct (p_right pg) as [b'|] eqn:Er.
      - destruct (Nat.eq_dec b' x) as [->|Hn'].
        + unfold get in *. fold lp rp. rewrite E. exists (Some r). split; [|right; auto].
          rewrite nth_upd_same; [reflexivity|]. eapply nth_some_lt; exact E.
        + exists (p_left px). split; [|left; split; [congruence|reflexivity]]. fold lp rp. unfold get in *.
          destruct (nth_error _ b') eqn:E'; [rewrite nth_upd_other by auto|]; rewrite E; destruct px; reflexivity.
      - exists (p_left px). split; [|left; split; [discriminate|reflexivity]]. fold lp rp. unfold get. rewrite E. destruct px; reflexivity.
    Qed.

    Lemma snr_at h0 x : at_ splitG h0 x <-> at_ G h0 x \/ (x = r /\ h0 = h).
    Proof.
      unfold at_ at 1. cbn [splitG lv]. split.
      - intros (L & E & Hx). rewrite nth_error_map in E. destruct (nth_error (lv G) h0) as [L0|] eqn:E0; [|discriminate].
        simpl in E. injection E as <-. apply ins_after_in in Hx as [Hx|[-> Hx]]; [left; exists L0; auto|right].
        split; [reflexivity|]. refine (at_inj _ _ _ _ _ _ _ _ _ HI _ _ b _ Hat). exists L0; auto.
      - intros [(L & E & Hx)|[-> ->]].
        + exists (ins_after b r L). rewrite nth_error_map, E. split; [reflexivity|]. apply ins_after_in. auto.
        + destruct Hat as (L & E & Hb). exists (ins_after b r L). rewrite nth_error_map, E. split; [reflexivity|].
          apply ins_after_in. auto.
    Qed.
    Lemma snr_fresh h0 x : at_ G h0 x -> x <> r.
    Proof. intros H E. pose proof (at_valid _ _ _ _ _ _ _ _ _ HI _ _ H). unfold r in E. lia. Qed.
    Lemma snr_zl : ble zl (shi G b).
    Proof. eapply ble_trans; [exact OK|exact H2|]. apply blt_ble. exact H5. Qed.
    Lemma snr_slo x h0 : at_ G h0 x -> slo splitG x = slo G x.
    Proof. intro H. cbn [splitG slo]. destruct (Nat.eqb_spec x r) as [E|E]; [exfalso; exact (snr_fresh _ _ H E)|reflexivity]. Qed.
    Lemma snr_shi x h0 : at_ G h0 x -> x <> b -> shi splitG x = shi G x.
    Proof.
      intros H Hn. cbn [splitG shi]. destruct (Nat.eqb_spec x b) as [E|E]; [tauto|].
      destruct (Nat.eqb_spec x r) as [E'|E']; [exfalso; exact (snr_fresh _ _ H E')|reflexivity].
    Qed.
    Lemma snr_shi_le x h0 : at_ G h0 x -> ble (shi splitG x) (shi G x).
    Proof.
      intro H. destruct (Nat.eq_dec x b) as [->|Hn].
      - cbn [splitG shi]. rewrite Nat.eqb_refl. exact snr_zl.
      - rewrite (snr_shi _ _ H Hn). apply ble_refl. exact OK.
    Qed.
    Lemma snr_body h0 lo hi px : body tight G h0 lo hi px -> body tight splitG h0 lo hi px.
    Proof.
      apply body_mono. intros h' x _ Hx. split; [apply snr_at; auto|].
      split; [exact (snr_slo _ _ Hx)|exact (snr_shi_le _ _ Hx)].
    Qed.
    Lemma snr_shi_b : shi splitG b = zl.
    Proof. cbn [splitG shi]. rewrite Nat.eqb_refl. reflexivity. Qed.
    Lemma snr_shi_r : shi splitG r = shi G b.
    Proof. cbn [splitG shi]. rewrite Nat.eqb_refl. destruct (Nat.eqb_spec r b) as [E|E]; [pose proof snr_b_lt; lia|reflexivity]. Qed.
    Lemma snr_slo_r : slo splitG r = zr.
    Proof. cbn [splitG slo]. rewrite Nat.eqb_refl. reflexivity. Qed.

    Lemma snr_inv : Inv tight st' root splitG.
    Proof.
      destruct (page_facts cmp ifit lbound ok fit tight st root G HI _ _ _ Hat Hg) as (A & B & C & D & E & _).
      constructor.
      - destruct (I_top _ _ _ _ _ _ _ _ _ HI) as [X EX]. exists (map (ins_after b r) X). cbn [splitG lv].
        rewrite EX, map_app. cbn [map]. rewrite ins_after_id; [reflexivity|]. intros [Hc|[]]. congruence.
      - cbn [splitG lv]. apply ins_levels_nodup; [apply (I_nodup _ _ _ _ _ _ _ _ _ HI)|].
        intro Hin. apply in_concat in Hin as (L & HLi & Hx). apply In_nth_error in HLi as [h0 HLi].
        refine (snr_fresh h0 r _ eq_refl). exists L; auto.
      - intros h0 L E0. cbn [splitG lv] in E0. rewrite nth_error_map in E0.
        destruct (nth_error (lv G) h0) as [L0|] eqn:EL; [|discriminate]. simpl in E0. injection E0 as <-.
        pose proof (I_links _ _ _ _ _ _ _ _ _ HI _ _ EL) as Hl.
        assert (Hsame : forall x, In x L0 -> x <> b -> p_right pg <> Some x -> same_links st st' x).
        { intros x _ Hnb Hnr px Hpx. destruct (snr_get_other x px Hnb Hpx) as (l' & Hgx & [[_ ->]|[Hc _]]); [|congruence].
          eexists. split; [exact Hgx|]. auto. }
        destruct (in_dec Nat.eq_dec b L0) as [Hb|Hb].
        + apply in_split in Hb as (L1 & L2 & ->). pose proof (level_nodup _ _ _ _ _ _ _ _ _ HI _ _ EL) as N.
          assert (Hn1 : ~ In b L1) by (apply NoDup_remove_2 in N; rewrite in_app_iff in N; tauto).
          assert (Hn2 : ~ In b L2) by (apply NoDup_remove_2 in N; rewrite in_app_iff in N; tauto).
          rewrite ins_after_split by exact Hn1.
          assert (Hrt : p_right pg = hd_error L2).
          { apply links_at in Hl as (pg' & Hg' & Hr' & _). rewrite Hg in Hg'. injection Hg' as <-. exact Hr'. }
          assert (Hpre : forall x, In x L1 -> p_right pg <> Some x).
          { intros x Hx Hc. rewrite Hrt in Hc. destruct L2 as [|c L2]; [discriminate|]. simpl in Hc. injection Hc as ->.
            clear - N Hx. apply nodup_app in N as (_ & _ & Nd). apply (Nd x Hx). right; left; reflexivity. }
          assert (Hsuf : forall x c L2', L2 = c :: L2' -> In x L2' -> p_right pg <> Some x).
          { intros x c L2' -> Hx Hc. rewrite Hrt in Hc. simpl in Hc. injection Hc as ->.
            clear - N Hx. apply nodup_app in N as (_ & N & _). inversion N as [|? ? _ N']; subst. inversion N'; subst. tauto. }
          assert (Hs1 : forall x, In x L1 -> same_links st st' x).
          { intros x Hx. apply Hsame; [apply in_app_iff; auto|intros ->; tauto|auto]. }
          clear EL N Hsame Hpre. revert Hl Hs1. generalize (@None nat) as prv.
          clear Hn1. induction L1 as [|a L1 IH]; intros prv Hl Hs1; cbn [app links] in *.
          * destruct Hl as (pg' & Hg' & Hl' & Hr' & Hrest). rewrite Hg in Hg'. injection Hg' as <-.
            exists lp. rewrite snr_get_b. split; [reflexivity|]. split; [exact Hl'|]. split; [reflexivity|].
            exists rp. rewrite snr_get_r. split; [reflexivity|]. split; [reflexivity|]. split; [exact Hrt|].
            destruct L2 as [|c L2]; [exact I|]. cbn [links] in Hrest |- *. destruct Hrest as (pc & Hgc & Hlc & Hrc & Hrest).
            destruct (snr_get_other c pc ltac:(intros ->; apply Hn2; left; reflexivity) Hgc) as (l' & Hgc' & Hl2).
            destruct Hl2 as [[Hc _]|[_ ->]]; [simpl in Hrt; congruence|].
            eexists. split; [exact Hgc'|]. cbn [p_left p_right]. split; [reflexivity|]. split; [exact Hrc|].
            eapply links_ext; [|exact Hrest]. intros x Hx px Hpx.
            destruct (snr_get_other x px ltac:(intros ->; apply Hn2; right; exact Hx) Hpx) as (l2 & Hgx & [[_ ->]|[Hc _]]).
            -- eexists. split; [exact Hgx|]. auto.
            -- exfalso. exact (Hsuf x c L2 eq_refl Hx Hc).
          * destruct Hl as (pa & Hga & Hla & Hra & Hrest).
            destruct (Hs1 a (or_introl eq_refl) pa Hga) as (pa' & Hga' & Ea & Ea').
            exists pa'. split; [exact Hga'|]. split; [congruence|]. split.
            -- rewrite Ea', Hra. destruct L1; reflexivity.
            -- apply IH; auto. intros x Hx. apply Hs1. right; exact Hx.
        + rewrite ins_after_id by exact Hb. eapply links_ext; [|exact Hl].
          intros x Hx. apply Hsame; [exact Hx|intros ->; tauto|]. intro Hc.
          assert (Hx' : at_ G h0 x) by (exists L0; auto).
          pose proof (right_at _ _ _ _ _ _ _ _ _ HI _ _ _ _ Hat Hg Hc) as Hx2.
          assert (h0 = h) as -> by exact (at_inj _ _ _ _ _ _ _ _ _ HI _ _ _ Hx' Hx2).
          destruct Hat as (Lb & ELb & HLb). rewrite EL in ELb. injection ELb as <-. tauto.
      - intros h0 x Hx. apply snr_at in Hx as [Hx|[-> ->]].
        + destruct (Nat.eq_dec x b) as [->|Hn].
          * assert (h0 = h) as -> by exact (at_inj _ _ _ _ _ _ _ _ _ HI _ _ _ Hx Hat).
            exists lp. rewrite snr_get_b. split; [reflexivity|]. split; [exact A|]. split; [reflexivity|].
            rewrite (snr_slo _ _ Hat), snr_shi_b. split; [exact H1|]. split; [exact D|]. split.
            -- intros b' Eb. cbn [p_right lp] in Eb. injection Eb as <-. rewrite snr_slo_r. cbn [p_bound lp]. auto.
            -- apply snr_body. exact HL.
          * destruct (I_page _ _ _ _ _ _ _ _ _ HI _ _ Hx) as (px & Hgx & A' & B' & C' & D' & E' & F').
            destruct (snr_get_other x px Hn Hgx) as (l' & Hgx' & Hl').
            eexists. split; [exact Hgx'|]. cbn [p_leaf p_deleted p_left p_right p_bound].
            rewrite (snr_slo _ _ Hx), (snr_shi _ _ Hx Hn).
            split; [exact A'|]. split; [exact B'|]. split; [exact C'|].
            split; [intro El; destruct Hl' as [[_ El']|[_ El']]; [apply D'; congruence|congruence]|].
            split.
            -- intros b' Eb. pose proof (right_at _ _ _ _ _ _ _ _ _ HI _ _ _ _ Hx Hgx Eb) as Hb'.
               rewrite (snr_slo _ _ Hb'). apply E'. exact Eb.
            -- apply snr_body. destruct h0; exact F'.
        + exists rp. rewrite snr_get_r. split; [reflexivity|]. split; [exact A|]. split; [reflexivity|].
          rewrite snr_slo_r, snr_shi_r. split; [exact H5|]. split; [discriminate|]. split.
          * intros b' Eb. cbn [p_right p_bound rp] in *. pose proof (right_at _ _ _ _ _ _ _ _ _ HI _ _ _ _ Hat Hg Eb) as Hb'.
            rewrite (snr_slo _ _ Hb'). apply E. exact Eb.
          * apply snr_body. exact HR.
    Qed.

    Lemma snr_top : top splitG = top G.
    Proof. unfold top. cbn [splitG lv]. rewrite map_length. reflexivity. Qed.

    Lemma snr_chg gone used : stay st G b gone -> (h = 0 -> page_chg (p_items pg) (li ++ ri) gone used) ->
      (h <> 0 -> used = []) -> rows_chg st G st' splitG gone used.
    Proof.
      intros Hs Hi0 Hu x.
      assert (Hi : h = 0 -> forall x, In x li \/ In x ri <-> (In x (p_items pg) /\ gone x = false) \/ In x used).
      { intros E y. rewrite <- in_app_iff. apply (Hi0 E). }
      rewrite (contents_in' _ _ _ _ _ snr_inv), (contents_in' _ _ _ _ _ HI). split.
      - intros (c & pc & Hc & Hgc & Hx). apply snr_at in Hc as [Hc|[-> Eh]].
        + destruct (Nat.eq_dec c b) as [->|Hn].
          * assert (h = 0) as Eh by exact (at_inj _ _ _ _ _ _ _ _ _ HI _ _ _ Hat Hc).
            rewrite snr_get_b in Hgc. injection Hgc as <-.
            destruct (proj1 (Hi Eh x) (or_introl Hx)) as [[Hy Hy']|Hy]; [left; split; [exists b, pg; auto|exact Hy']|right; exact Hy].
          * destruct (page_get cmp ifit lbound ok fit tight st root G HI _ _ Hc) as [px Hpx].
            destruct (snr_get_other c px Hn Hpx) as (l' & Hgx & _). rewrite Hgx in Hgc. injection Hgc as <-.
            left. split; [exists c, px; auto|exact (Hs c px x Hc Hn Hpx Hx)].
        + rewrite snr_get_r in Hgc. injection Hgc as <-. symmetry in Eh.
          destruct (proj1 (Hi Eh x) (or_intror Hx)) as [[Hy Hy']|Hy]; [left; split; [exists b, pg; rewrite <- Eh; auto|exact Hy']|right; exact Hy].
      - assert (K : h = 0 -> (In x (p_items pg) /\ gone x = false) \/ In x used ->
          exists c pc, at_ splitG 0 c /\ get st' c = Some pc /\ In x (p_items pc)).
        { intros Eh Hy. apply (Hi Eh) in Hy as [Hy|Hy].
          - exists b, lp. rewrite snr_get_b. split; [apply snr_at; left; rewrite <- Eh; exact Hat|]. auto.
          - exists r, rp. rewrite snr_get_r. split; [apply snr_at; right; auto|]. auto. }
        intros [[(c & pc & Hc & Hgc & Hx) Hx']|Hx].
        + destruct (Nat.eq_dec c b) as [->|Hn].
          * assert (h = 0) as Eh by exact (at_inj _ _ _ _ _ _ _ _ _ HI _ _ _ Hat Hc).
            rewrite Hg in Hgc. injection Hgc as <-. auto.
          * destruct (snr_get_other c pc Hn Hgc) as (l' & Hgx & _). exists c. eexists.
            split; [apply snr_at; left; exact Hc|]. split; [exact Hgx|exact Hx].
        + destruct (Nat.eq_dec h 0) as [Eh|Eh]; [auto|]. rewrite (Hu Eh) in Hx. destruct Hx.
    Qed.

    Lemma snr_rows used : (h = 0 -> forall x, In x li \/ In x ri <-> In x (p_items pg) \/ In x used) ->
      (h <> 0 -> used = []) -> rows_add st G st' splitG used.
    Proof.
      intros Hi Hu x. assert (Hp : h = 0 -> page_chg (p_items pg) (li ++ ri) (fun _ => false) used).
      { intros E y. rewrite in_app_iff, (Hi E y). tauto. }
      pose proof (snr_chg (fun _ => false) used (fun _ _ _ _ _ _ _ => eq_refl) Hp Hu x) as K. cbn beta in K. tauto.
    Qed.

    (** downlinks found before are found after, and the new ones *)
    Lemma snr_downs p px kk c : get st p = Some px -> In (kk, c) (p_downs px) -> at_ G h p \/ p <> b ->
      (forall k0 c0, In (k0, c0) (p_downs pg) -> exists k', In (k', c0) (ld ++ rd)) ->
      exists p' px' k', (p' = p \/ (p = b /\ p' = r)) /\ get st' p' = Some px' /\ In (k', c) (p_downs px').
    Proof.
      intros Hp Hin _ Hd. destruct (Nat.eq_dec p b) as [->|Hn].
      - rewrite Hg in Hp. injection Hp as <-. destruct (Hd _ _ Hin) as [k' Hk']. apply in_app_iff in Hk' as [Hk'|Hk'].
        + exists b, lp, k'. rewrite snr_get_b. auto.
        + exists r, rp, k'. rewrite snr_get_r. auto.
      - destruct (snr_get_other p px Hn Hp) as (l' & Hgx & _). exists p. eexists. exists kk.
        split; [left; reflexivity|]. split; [exact Hgx|exact Hin].
    Qed.

    Lemma snr_complete X : complete_but st root G X ->
      (forall k0 c0, In (k0, c0) (p_downs pg) -> exists k', In (k', c0) (ld ++ rd)) ->
      (forall x, X x -> exists hx k', h = S hx /\ at_ G hx x /\ In (k', x) (ld ++ rd)) ->
      complete_but st' root splitG (fun x => x = r).
    Proof.
      intros Hc Hd HX h0 x Hx Hxr Hnr. apply snr_at in Hx as [Hx|[E _]]; [|tauto].
      assert (K : forall k', In (k', x) (ld ++ rd) -> h = S h0 ->
        exists p px k1, at_ splitG (S h0) p /\ get st' p = Some px /\ In (k1, x) (p_downs px)).
      { intros k' Hk' Eh. apply in_app_iff in Hk' as [Hk'|Hk'].
        - exists b, lp, k'. rewrite snr_get_b. split; [apply snr_at; left; rewrite <- Eh; exact Hat|auto].
        - exists r, rp, k'. rewrite snr_get_r. split; [apply snr_at; right; auto|auto]. }
      destruct (in_dec Nat.eq_dec x (map snd (ld ++ rd))) as [Hin|Hnin].
      - apply in_map_iff in Hin as ([k' c] & E & Hin). simpl in E. subst c.
        destruct (Nat.eq_dec h (S h0)) as [Eh|Eh]; [eauto|].
        assert (HnX : ~ X x).
        { intro Hxx. destruct (HX x Hxx) as (hx & k1 & Eh1 & Hax & _). apply Eh. rewrite Eh1. f_equal.
          exact (at_inj _ _ _ _ _ _ _ _ _ HI _ _ _ Hax Hx). }
        destruct (Hc h0 x Hx Hxr HnX) as (p & px & k1 & Hp & Hgp & Hpin).
        assert (Hnb : p <> b) by (intros ->; apply Eh; exact (at_inj _ _ _ _ _ _ _ _ _ HI _ _ _ Hat Hp)).
        destruct (snr_get_other p px Hnb Hgp) as (l' & Hgx & _). exists p. eexists. exists k1.
        split; [apply snr_at; auto|]. split; [exact Hgx|exact Hpin].
      - assert (HnX : ~ X x).
        { intro Hxx. destruct (HX x Hxx) as (hx & k1 & _ & _ & Hin). apply Hnin.
          change x with (snd (k1, x)). apply in_map. exact Hin. }
        destruct (Hc h0 x Hx Hxr HnX) as (p & px & k1 & Hp & Hgp & Hpin).
        destruct (Nat.eq_dec p b) as [->|Hnb].
        + rewrite Hg in Hgp. injection Hgp as <-. destruct (Hd _ _ Hpin) as [k' Hk'].
          apply (K k' Hk'). exact (at_inj _ _ _ _ _ _ _ _ _ HI _ _ _ Hat Hp).
        + destruct (snr_get_other p px Hnb Hgp) as (l' & Hgx & _). exists p. eexists. exists k1.
          split; [apply snr_at; auto|]. split; [exact Hgx|exact Hpin].
    Qed.

    (** what the parent update will need *)
    Lemma snr_pend p px d1 k0 d2 : at_ splitG (S h) p -> get st' p = Some px -> p_downs px = d1 ++ (k0, b) :: d2 ->
      slot_ok cmp (slo splitG) (negb (rightmost px)) (shi splitG p) k0 d2 (shi splitG r).
    Proof.
      intros Hp Hgp Ed. apply snr_at in Hp as [Hp|[_ E]]; [|lia].
      assert (Hnb : p <> b) by (intros ->; pose proof (at_inj _ _ _ _ _ _ _ _ _ HI _ _ _ Hat Hp); lia).
      destruct (page_get cmp ifit lbound ok fit tight st root G HI _ _ Hp) as [p0 Hp0].
      destruct (snr_get_other p p0 Hnb Hp0) as (l' & Hgx & _). rewrite Hgx in Hgp. injection Hgp as <-.
      cbn [p_downs] in Ed. unfold rightmost. cbn [p_right]. fold (rightmost p0).
      destruct (page_facts cmp ifit lbound ok fit tight st root G HI _ _ _ Hp Hp0) as (_ & _ & _ & _ & _ & Hb).
      destruct Hb as (_ & _ & Hch & Hd & _ & _). rewrite Ed in Hd, Hch. apply (dok_at cmp OK) in Hd as [Hs _].
      rewrite snr_shi_r, (snr_shi _ _ Hp Hnb).
      unfold slot_ok in *. destruct d2 as [|[k2 c2] d2]; [exact Hs|].
      assert (Hc2 : at_ G h c2).
      { rewrite Forall_forall in Hch. apply (Hch (k2, c2)). apply in_app_iff. right; right; left; reflexivity. }
      rewrite (snr_slo _ _ Hc2). exact Hs.
    Qed.
    Lemma snr_wst q stack : wst root G q stack -> wst root splitG q stack.
    Proof.
      revert q. induction stack as [|[p o] up IH]; intros q; cbn [wst]; [auto|].
      intros (A & (h0 & B) & C). split; [exact A|]. split; [exists h0; apply snr_at; auto|auto].
    Qed.
  End NonRoot.
End Split.
