(** Overlapping insertions: what a change of pages by one writer leaves of the tree for the others. *)
From Verif Require Import Ord BTree BTreeInv BTreeFind BTreeParent BTreeSplit BTreeRoot BTreeIns.
From Coq Require Import List ZArith Bool Arith Lia.
Import ListNotations.

Section CInv.
  Context {T : Type}.
  Variable cmp : T -> T -> Z.
  Hypothesis OK : total_cmp cmp.
  Variable ifit : list (T * nat) -> Prop.
  Variable lbound : bool.
  Variable ok : T -> Prop.
  Variable fit : list T -> Prop.
  Variable tnull : T.
  Variable rkey : T -> list T -> list (T * nat) -> T.
  Notation page := (page T).
  Notation store := (list page).
  Notation Inv := (Inv cmp ifit lbound ok fit).
  Notation body := (body cmp ifit lbound ok fit).
  Notation ble := (ble cmp).
  Notation blt := (blt cmp).

  (** The ranges of a level's pages meet, and the last key of a page is not below its range. *)
  Definition tiled (st : store) (G : @ghost T) : Prop := forall h b pg, at_ G h b -> get st b = Some pg ->
    match p_right pg with Some r => shi G b = slo G r | None => shi G b = BMax end /\
    (p_right pg <> None -> forall d k c, p_downs pg = d ++ [(k, c)] -> ble (shi G b) (BAt k)).

  Section State.
    Context (tight : bool) (st : store) (root : nat) (G : @ghost T).
    Hypothesis HI : Inv tight st root G.
    Notation lo_hi := (slo_lt_shi cmp ifit lbound ok fit tight st root G HI).

    Lemma page_order h b c : at_ G h b -> at_ G h c -> c <> b -> ble (slo G b) (slo G c) -> ble (shi G b) (slo G c).
    Proof.
      intros Hb Hc Hn Hl. destruct (at_split G _ _ Hb) as (L1 & L2 & HL). destruct Hc as (L & HL' & Hc). rewrite HL in HL'.
      injection HL' as <-. apply in_app_iff in Hc as [Hc|[Hc|Hc]]; [|congruence|].
      - exfalso. assert (Hca : at_ G h c) by (eexists; split; [exact HL|apply in_app_iff; auto]).
        apply in_split in Hc as (M1 & M2 & ->). rewrite <- app_assoc in HL. cbn [app] in HL.
        assert (K : ble (shi G c) (slo G b)).
        { eapply (level_order cmp OK ifit lbound ok fit tight st root G HI h M1 c); [exact HL|]. apply in_app_iff. right; left; reflexivity. }
        eapply (ble_nlt cmp OK); [exact Hl|]. eapply (blt_le_trans cmp OK); [eapply lo_hi; eauto|exact K].
      - eapply (level_order cmp OK ifit lbound ok fit tight st root G HI); eauto.
    Qed.
    Lemma page_after h b c pg r : at_ G h b -> at_ G h c -> get st b = Some pg -> p_right pg = Some r ->
      ble (shi G b) (slo G c) -> c = r \/ ble (shi G r) (slo G c).
    Proof.
      intros Hb Hc Hg Hr Hl. destruct (at_split G _ _ Hb) as (L1 & L2 & HL).
      pose proof (I_links _ _ _ _ _ _ _ _ _ HI _ _ HL) as Hk. apply links_at in Hk as (pg' & Hg' & Hr' & _).
      rewrite Hg in Hg'. injection Hg' as <-. rewrite Hr in Hr'. destruct L2 as [|r' L2]; [discriminate|]. injection Hr' as <-.
      pose proof (lo_hi _ _ Hb) as Hbb. pose proof (lo_hi _ _ Hc) as Hcc.
      destruct Hc as (L & HL' & Hin). rewrite HL in HL'. injection HL' as <-. apply in_app_iff in Hin as [Hin|[Hin|[Hin|Hin]]]; [exfalso|exfalso|left; congruence|].
      - apply in_split in Hin as (M1 & M2 & ->). rewrite <- app_assoc in HL. cbn [app] in HL.
        assert (K : ble (shi G c) (slo G b)).
        { eapply (level_order cmp OK ifit lbound ok fit tight st root G HI h M1 c); [exact HL|]. apply in_app_iff. right; left; reflexivity. }
        eapply (ble_nlt cmp OK); [exact Hl|]. eapply (blt_le_trans cmp OK); [exact Hcc|]. eapply (ble_trans cmp OK); [exact K|]. apply blt_ble. exact Hbb.
      - subst c. eapply (ble_nlt cmp OK); eauto.
      - right. eapply (level_order cmp OK ifit lbound ok fit tight st root G HI h (L1 ++ [b]) r L2); [rewrite <- app_assoc; exact HL|exact Hin].
    Qed.
    Lemma page_last h b c pg : at_ G h b -> at_ G h c -> get st b = Some pg -> p_right pg = None ->
      ble (slo G b) (slo G c) -> c = b.
    Proof.
      intros Hb Hc Hg Hr Hl. destruct (Nat.eq_dec c b) as [E|E]; [exact E|]. exfalso. pose proof (page_order h b c Hb Hc E Hl) as K.
      destruct (at_split G _ _ Hb) as (L1 & L2 & HL).
      pose proof (I_links _ _ _ _ _ _ _ _ _ HI _ _ HL) as Hk. apply links_at in Hk as (pg' & Hg' & Hr' & _).
      rewrite Hg in Hg'. injection Hg' as <-. rewrite Hr in Hr'. destruct L2 as [|r' L2]; [|discriminate].
      pose proof (lo_hi _ _ Hb) as Hbb. pose proof (lo_hi _ _ Hc) as Hcc.
      destruct Hc as (L & HL' & Hin). rewrite HL in HL'. injection HL' as <-. apply in_app_iff in Hin as [Hin|[Hin|[]]]; [|congruence].
      apply in_split in Hin as (M1 & M2 & ->). rewrite <- app_assoc in HL. cbn [app] in HL.
      assert (K' : ble (shi G c) (slo G b)).
      { eapply (level_order cmp OK ifit lbound ok fit tight st root G HI h M1 c); [exact HL|]. apply in_app_iff. right; left; reflexivity. }
      eapply (ble_nlt cmp OK); [exact Hl|]. eapply (blt_le_trans cmp OK); [exact Hcc|exact K'].
    Qed.
    (** the left neighbour is unique *)
    Lemma right_inj h b c pb pc r : at_ G h b -> at_ G h c -> get st b = Some pb -> get st c = Some pc ->
      p_right pb = Some r -> p_right pc = Some r -> b = c.
    Proof.
      intros Hb Hc Gb Gc Rb Rc. destruct (Nat.eq_dec b c) as [E|E]; [exact E|]. exfalso.
      assert (Hr : at_ G h r) by (eapply (right_at cmp ifit lbound ok fit tight st root G HI); [exact Hb|exact Gb|exact Rb]).
      assert (Kb := page_facts cmp ifit lbound ok fit tight st root G HI _ _ _ Hb Gb).
      assert (Kc := page_facts cmp ifit lbound ok fit tight st root G HI _ _ _ Hc Gc).
      destruct Kb as (_ & _ & _ & _ & Kb & _). destruct Kc as (_ & _ & _ & _ & Kc & _).
      destruct (Kb _ Rb) as [Lb _]. destruct (Kc _ Rc) as [Lc _].
      pose proof (lo_hi _ _ Hb) as Hbb. pose proof (lo_hi _ _ Hc) as Hcc. pose proof (lo_hi _ _ Hr) as Hrr.
      assert (D : ble (slo G b) (slo G c) \/ ble (slo G c) (slo G b)).
      { unfold BTreeInv.ble. pose proof (tc_anti _ (bcmp_total cmp OK) (slo G b) (slo G c)). lia. }
      destruct D as [D|D].
      - pose proof (page_order h b c Hb Hc ltac:(congruence) D) as K.
        destruct (page_after h b c pb r Hb Hc Gb Rb K) as [->|K2].
        + exact (ble_nlt cmp OK _ _ Lc Hcc).
        + eapply (ble_nlt cmp OK); [exact Lc|]. eapply (blt_le_trans cmp OK); [exact Hrr|]. eapply (ble_trans cmp OK); [exact K2|]. apply blt_ble. exact Hcc.
      - pose proof (page_order h c b Hc Hb ltac:(congruence) D) as K.
        destruct (page_after h c b pc r Hc Hb Gc Rc K) as [->|K2].
        + exact (ble_nlt cmp OK _ _ Lb Hbb).
        + eapply (ble_nlt cmp OK); [exact Lb|]. eapply (blt_le_trans cmp OK); [exact Hrr|]. eapply (ble_trans cmp OK); [exact K2|]. apply blt_ble. exact Hbb.
    Qed.

    (** room in the parent's range for the right half, as long as no downlink leads to it *)
    Lemma found_slot h lb rb pl p pg o k0 : tiled st G -> at_ G h lb -> at_ G h rb -> get st lb = Some pl -> p_right pl = Some rb ->
      (forall h' q qx k, at_ G h' q -> get st q = Some qx -> ~ In (k, rb) (p_downs qx)) ->
      at_ G (S h) p -> get st p = Some pg -> 1 <= o -> nth_error (p_downs pg) (o - 1) = Some (k0, lb) ->
      slot_ok cmp (slo G) (negb (rightmost pg)) (shi G p) k0 (skipn o (p_downs pg)) (shi G rb).
    Proof.
      intros Ht Hlb Hrb Hgl Hrl Hno Hp Hgp Ho Hn. apply nth_error_split in Hn as (d1 & d2 & Ed & El).
      assert (Es : skipn o (p_downs pg) = d2).
      { rewrite Ed. replace o with (length (d1 ++ [(k0, lb)])) by (rewrite app_length; simpl; lia).
        change (d1 ++ (k0, lb) :: d2) with (d1 ++ [(k0, lb)] ++ d2). rewrite app_assoc, skipn_app, skipn_all, Nat.sub_diag. reflexivity. }
      rewrite Es. destruct (page_facts cmp ifit lbound ok fit tight st root G HI _ _ _ Hp Hgp) as (_ & _ & _ & _ & _ & Hb).
      destruct Hb as (_ & _ & Hch & Hd & _ & _). rewrite Ed in Hd. pose proof (dok_at cmp OK _ _ _ _ _ _ _ _ Hd) as [Hs _].
      assert (After : forall c, at_ G h c -> (exists q qx k, at_ G (S h) q /\ get st q = Some qx /\ In (k, c) (p_downs qx)) ->
        ble (shi G lb) (slo G c) -> ble (shi G rb) (slo G c)).
      { intros c Hc (q & qx & k & Hq & Hgq & Hin) Hle. destruct (page_after h lb c pl rb Hlb Hc Hgl Hrl Hle) as [->|K]; [|exact K].
        exfalso. exact (Hno _ _ _ _ Hq Hgq Hin). }
      unfold slot_ok in *. destruct d2 as [|[k' c'] d2].
      - destruct (Ht _ _ _ Hp Hgp) as [Ht1 Ht2]. unfold rightmost. destruct (p_right pg) as [p'|] eqn:Er.
        + assert (K : ble (shi G rb) (shi G p)).
          { rewrite Ht1. assert (Hp' : at_ G (S h) p') by (eapply (right_at cmp ifit lbound ok fit tight st root G HI); [exact Hp|exact Hgp|exact Er]).
            destruct (page_get cmp ifit lbound ok fit tight st root G HI _ _ Hp') as [pp Hpp].
            destruct (page_facts cmp ifit lbound ok fit tight st root G HI _ _ _ Hp' Hpp) as (_ & _ & _ & _ & _ & Hb').
            destruct Hb' as (_ & _ & Hch' & _ & _ & [kf cf] & df & Ef & Esl). cbn [snd] in Esl. rewrite Esl. rewrite Forall_forall in Hch'.
            apply After.
            - apply (Hch' (kf, cf)). rewrite Ef. left; reflexivity.
            - exists p', pp, kf. rewrite Ef. split; [exact Hp'|]. split; [exact Hpp|left; reflexivity].
            - rewrite <- Esl, <- Ht1. apply Hs. }
          split; [exact K|]. intros _. eapply (ble_trans cmp OK); [exact K|]. eapply Ht2; [discriminate|exact Ed].
        + rewrite Ht1. split; [apply ble_max|]. intro Hc. discriminate.
      - split; [|apply Hs]. rewrite Forall_forall in Hch. apply After.
        + apply (Hch (k', c')). rewrite Ed. apply in_app_iff. right; right; left; reflexivity.
        + exists p, pg, k'. split; [exact Hp|]. split; [exact Hgp|]. rewrite Ed. apply in_app_iff. right; right; left; reflexivity.
        + apply Hs.
    Qed.
  End State.

  (** ** a change of page [b] by one writer, seen by the others; [own]: a page that gets its downlink,
      [new]: a page that comes into being without one *)
  Record chg (root b : nat) (own new : option nat) (st : store) (G : @ghost T) (st' : store) (G' : @ghost T) : Prop := {
    c_at : forall h x, at_ G h x -> x <> root -> at_ G' h x;
    c_top : top G <= top G';
    c_lev : b <> root -> top G' = top G;
    c_slo : forall h x, at_ G h x -> slo G' x = slo G x;
    c_shi : forall h x, at_ G h x -> ble (shi G' x) (shi G x);
    c_same : forall h x, at_ G h x -> x <> b -> shi G' x = shi G x;
    c_keep : forall h x px, at_ G h x -> x <> b -> get st x = Some px ->
      exists px', get st' x = Some px' /\ p_downs px' = p_downs px /\ p_right px' = p_right px;
    c_downs : forall h p px k c, at_ G (S h) p -> get st p = Some px -> In (k, c) (p_downs px) ->
      exists p' px' k', at_ G' (S h) p' /\ get st' p' = Some px' /\ In (k', c) (p_downs px') /\ ble (slo G p) (slo G' p');
    c_own : forall c h, own = Some c -> at_ G h c -> exists p' px' k', at_ G' (S h) p' /\ get st' p' = Some px' /\ In (k', c) (p_downs px') /\ ble (slo G b) (slo G' p');
    c_new : forall h p px k c, at_ G' h p -> get st' p = Some px -> In (k, c) (p_downs px) ->
      (exists h' q qx k', at_ G h' q /\ get st q = Some qx /\ In (k', c) (p_downs qx)) \/ own = Some c \/
      ((forall h0, ~ at_ G h0 c) /\ new <> Some c);
    c_fresh : forall h c, at_ G' h c -> (exists h0, at_ G h0 c) \/ new = Some c \/
      exists p px k, at_ G' (S h) p /\ get st' p = Some px /\ In (k, c) (p_downs px);
    c_up : top G' <= S (top G) }.

  Section Chg.
    Context (tight : bool) (st : store) (root : nat) (G : @ghost T).
    Hypothesis HI : Inv tight st root G.
    Hypothesis HT : tiled st G.

    Lemma chg_set h b pg items d own : at_ G h b -> get st b = Some pg ->
      body tight G h (slo G b) (shi G b) (mkPage (p_leaf pg) items d (p_bound pg) (p_left pg) (p_right pg) (p_deleted pg)) ->
      (forall k c, In (k, c) (p_downs pg) -> exists k', In (k', c) d) ->
      (forall k c, In (k, c) d -> (exists k', In (k', c) (p_downs pg)) \/ own = Some c) ->
      (forall c, own = Some c -> exists k', In (k', c) d) ->
      (p_right pg <> None -> forall d0 k c, d = d0 ++ [(k, c)] -> ble (shi G b) (BAt k)) ->
      Inv tight (set_page st b pg items d) root G /\ tiled (set_page st b pg items d) G /\ chg root b own None st G (set_page st b pg items d) G.
    Proof.
      intros Hat Hg Hb H1 H2 Ho H3.
      assert (HI' := set_page_inv cmp ifit lbound ok fit tight st root G HI h b pg items d Hat Hg Hb).
      assert (Es := set_page_same st b pg items d Hg). assert (Eo := set_page_other st b pg items d).
      split; [exact HI'|]. split.
      { intros h0 x px Hx Hgx. destruct (Nat.eq_dec x b) as [->|Hn].
        - rewrite Es in Hgx. injection Hgx as <-. cbn [p_right p_downs]. split; [apply (HT _ _ _ Hat Hg)|exact H3].
        - rewrite Eo in Hgx by exact Hn. exact (HT _ _ _ Hx Hgx). }
      constructor.
      - auto.
      - lia.
      - auto.
      - auto.
      - intros. apply ble_refl. exact OK.
      - auto.
      - intros h0 x px Hx Hn Hgx. exists px. rewrite Eo by exact Hn. auto.
      - intros h0 p px k c Hp Hgp Hin. destruct (Nat.eq_dec p b) as [->|Hn].
        + rewrite Hg in Hgp. injection Hgp as <-. destruct (H1 _ _ Hin) as [k' Hk']. eexists b, _, k'.
          split; [exact Hp|]. split; [exact Es|]. split; [exact Hk'|]. apply ble_refl. exact OK.
        + exists p, px, k. rewrite Eo by exact Hn. split; [exact Hp|]. split; [exact Hgp|]. split; [exact Hin|]. apply ble_refl. exact OK.
      - intros c h0 Eown Hc. destruct (Ho c Eown) as [k' Hk']. eexists b, _, k'.
        split; [|split; [exact Es|split; [exact Hk'|apply ble_refl; exact OK]]].
        assert (Hd : exists h', h = S h' /\ at_ G h' c).
        { eapply (down_level cmp ifit lbound ok fit tight _ root G HI'); [exact Hat|exact Es|exact Hk']. }
        destruct Hd as (h' & -> & Hc'). rewrite (at_inj _ _ _ _ _ _ _ _ _ HI _ _ _ Hc Hc'). exact Hat.
      - intros h0 p px k c Hp Hgp Hin. destruct (Nat.eq_dec p b) as [->|Hn].
        + rewrite Es in Hgp. injection Hgp as <-. cbn [p_downs] in Hin. destruct (H2 _ _ Hin) as [[k' Hk']|E]; [|auto].
          left. exists h, b, pg, k'. auto.
        + rewrite Eo in Hgp by exact Hn. left. exists h0, p, px, k. auto.
      - intros h0 c Hc. left. eauto.
      - lia.
    Qed.

    Lemma chg_snr h b pg k li ri ld rd z own :
      at_ G h b -> get st b = Some pg -> b <> root ->
      blt (slo G b) z -> ble z (BAt k) -> (h = 0 -> z = BAt k) -> blt z (shi G b) ->
      (forall rr, body tight G h (slo G b) z (mkPage (p_leaf pg) li ld k (p_left pg) (Some rr) false)) ->
      body tight G h z (shi G b) (mkPage (p_leaf pg) ri rd (p_bound pg) (Some b) (p_right pg) false) ->
      (forall k c, In (k, c) (p_downs pg) -> exists k', In (k', c) (ld ++ rd)) ->
      (forall k c, In (k, c) (ld ++ rd) -> (exists k', In (k', c) (p_downs pg)) \/ own = Some c) ->
      (forall c, own = Some c -> exists k', In (k', c) (ld ++ rd)) ->
      (forall d0 k c, ld = d0 ++ [(k, c)] -> ble z (BAt k)) ->
      (p_right pg <> None -> forall d0 k c, rd = d0 ++ [(k, c)] -> ble (shi G b) (BAt k)) ->
      let st' := fst (splitNonRoot st b pg k li ri ld rd) in
      exists G', Inv tight st' root G' /\ tiled st' G' /\ chg root b own (Some (length st)) st G st' G' /\
        at_ G' h b /\ at_ G' h (length st) /\ slo G' (length st) = z /\
        (exists pl, get st' b = Some pl /\ p_right pl = Some (length st)) /\
        (forall used, (h = 0 -> forall x, In x li \/ In x ri <-> In x (p_items pg) \/ In x used) -> (h <> 0 -> used = []) -> rows_add st G st' G' used).
    Proof.
      intros Hat Hg Hbr H1 H2 H3 H4 HL HR D1 D2 Ho L1 L2 st'.
      assert (Hzz : ble z z) by (apply ble_refl; exact OK).
      pose (G' := splitG st G b z z). exists G'.
      assert (HI' := snr_inv cmp OK ifit lbound ok fit tight st root G HI h b pg k li ri ld rd z z Hat Hg Hbr H1 Hzz H2 H3 H4 (HL _) HR). fold st' in HI'. fold G' in HI'.
      assert (At : forall h0 x, at_ G' h0 x <-> at_ G h0 x \/ (x = length st /\ h0 = h)) by exact (snr_at cmp ifit lbound ok fit tight st root G HI h b z z Hat).
      assert (Gr : get st' (length st) = Some (mkPage (p_leaf pg) ri rd (p_bound pg) (Some b) (p_right pg) false)) by (eapply (snr_get_r cmp ifit lbound ok fit tight st root G HI); eassumption).
      assert (Gb : get st' b = Some (mkPage (p_leaf pg) li ld k (p_left pg) (Some (length st)) false)) by (eapply (snr_get_b cmp ifit lbound ok fit tight st root G HI); eassumption).
      assert (Go := snr_get_other cmp ifit lbound ok fit tight st G h b pg k li ri ld rd z HR). fold st' in Go.
      assert (Slo : forall h0 x, at_ G h0 x -> slo G' x = slo G x) by (intros h0 x; exact (snr_slo cmp ifit lbound ok fit tight st root G HI h b k z z Hbr H3 x h0)).
      assert (Shi : forall h0 x, at_ G h0 x -> x <> b -> shi G' x = shi G x) by (intros h0 x; exact (snr_shi cmp ifit lbound ok fit tight st root G HI h b k z z Hbr H3 x h0)).
      assert (Shb : shi G' b = z) by exact (snr_shi_b st G b z z).
      assert (Slr : slo G' (length st) = z) by exact (snr_slo_r st G b z z).
      assert (Shr : shi G' (length st) = shi G b) by exact (snr_shi_r st root G h b pg k z z Hg Hbr H3).
      assert (Ab : at_ G' h b) by (apply At; auto). assert (Ar : at_ G' h (length st)) by (apply At; auto).
      assert (Hfr : forall h0 x, at_ G h0 x -> x <> length st) by (intros h0 x Hx E; pose proof (at_valid _ _ _ _ _ _ _ _ _ HI _ _ Hx); lia).
      split; [exact HI'|]. split.
      { intros h0 x px Hx Hgx. apply At in Hx as [Hx|[-> ->]].
        - destruct (Nat.eq_dec x b) as [->|Hn].
          + rewrite Gb in Hgx. injection Hgx as <-. cbn [p_right p_downs]. rewrite Shb, Slr. split; [reflexivity|]. intros _. exact L1.
          + destruct (page_get cmp ifit lbound ok fit tight st root G HI _ _ Hx) as [qx Hq].
            destruct (Go x qx Hn Hq) as (l' & Hgq & _). rewrite Hgq in Hgx. injection Hgx as <-. cbn [p_right p_downs].
            destruct (HT _ _ _ Hx Hq) as [A B]. rewrite (Shi _ _ Hx Hn). split; [|exact B].
            destruct (p_right qx) as [r0|] eqn:Er; [|exact A]. rewrite A. symmetry. eapply Slo.
            eapply (right_at cmp ifit lbound ok fit tight st root G HI); [exact Hx|exact Hq|exact Er].
        - rewrite Gr in Hgx. injection Hgx as <-. cbn [p_right p_downs]. rewrite Shr. destruct (HT _ _ _ Hat Hg) as [A _].
          split; [|exact L2]. destruct (p_right pg) as [r0|] eqn:Er; [|exact A]. rewrite A. symmetry. eapply Slo.
          eapply (right_at cmp ifit lbound ok fit tight st root G HI); [exact Hat|exact Hg|exact Er]. }
      split; [|split; [exact Ab|]; split; [exact Ar|]; split; [exact Slr|]; split].
      - assert (Dn : forall c k', In (k', c) (ld ++ rd) -> exists p' px' k1, at_ G' h p' /\ get st' p' = Some px' /\ In (k1, c) (p_downs px') /\ ble (slo G b) (slo G' p')).
        { intros c k' Hk'. apply in_app_iff in Hk' as [Hk'|Hk'].
          - eexists b, _, k'. split; [exact Ab|]. split; [exact Gb|]. split; [exact Hk'|]. rewrite (Slo _ _ Hat). apply ble_refl. exact OK.
          - eexists (length st), _, k'. split; [exact Ar|]. split; [exact Gr|]. split; [exact Hk'|]. rewrite Slr. apply blt_ble. exact H1. }
        constructor.
        + intros h0 x Hx _. apply At. auto.
        + unfold top. unfold G', splitG. cbn [lv]. rewrite map_length. lia.
        + intros _. unfold top. unfold G', splitG. cbn [lv]. rewrite map_length. lia.
        + exact Slo.
        + intros h0 x Hx. destruct (Nat.eq_dec x b) as [->|Hn]; [rewrite Shb; apply blt_ble; exact H4|rewrite (Shi _ _ Hx Hn); apply ble_refl; exact OK].
        + exact Shi.
        + intros h0 x px Hx Hn Hgx. destruct (Go x px Hn Hgx) as (l' & Hgq & _). eexists. split; [exact Hgq|]. auto.
        + intros h0 p px kk c Hp Hgp Hin. destruct (Nat.eq_dec p b) as [->|Hn].
          * rewrite Hg in Hgp. injection Hgp as <-. destruct (D1 _ _ Hin) as [k' Hk'].
            rewrite (at_inj _ _ _ _ _ _ _ _ _ HI _ _ _ Hp Hat). exact (Dn _ _ Hk').
          * destruct (Go p px Hn Hgp) as (l' & Hgq & _). eexists p, _, kk. split; [apply At; left; exact Hp|]. split; [exact Hgq|].
            split; [exact Hin|]. rewrite (Slo _ _ Hp). apply ble_refl. exact OK.
        + intros c h0 Eo Hc. destruct (Ho c Eo) as [k' Hk']. destruct (Dn _ _ Hk') as (p' & px' & k1 & P1 & P2 & P3 & P4).
          destruct (down_level cmp ifit lbound ok fit tight st' root G' HI' _ _ _ _ _ P1 P2 P3) as (h1 & -> & Hc1).
          apply At in Hc1 as [Hc1|[E _]]; [|exfalso; exact (Hfr _ _ Hc E)]. rewrite (at_inj _ _ _ _ _ _ _ _ _ HI _ _ _ Hc Hc1). eauto 10.
        + assert (Dold : forall kk c, In (kk, c) (ld ++ rd) -> (exists h' q qx k', at_ G h' q /\ get st q = Some qx /\ In (k', c) (p_downs qx)) \/ own = Some c).
          { intros kk c Hin. destruct (D2 _ _ Hin) as [[k' Hk']|E]; [|auto]. left. exists h, b, pg, k'. auto. }
          intros h0 p px kk c Hp Hgp Hin. apply At in Hp as [Hp|[-> ->]].
          * destruct (Nat.eq_dec p b) as [->|Hn].
            -- rewrite Gb in Hgp. injection Hgp as <-. cbn [p_downs] in Hin. destruct (Dold kk c) as [K|K]; [apply in_app_iff; auto|auto|auto].
            -- destruct (page_get cmp ifit lbound ok fit tight st root G HI _ _ Hp) as [qx Hq].
               destruct (Go p qx Hn Hq) as (l' & Hgq & _). rewrite Hgq in Hgp. injection Hgp as <-. left. exists h0, p, qx, kk. auto.
          * rewrite Gr in Hgp. injection Hgp as <-. cbn [p_downs] in Hin. destruct (Dold kk c) as [K|K]; [apply in_app_iff; auto|auto|auto].
        + intros h0 c Hc. apply At in Hc as [Hc|[-> _]]; [left; eauto|auto].
        + unfold top. unfold G', splitG. cbn [lv]. rewrite map_length. lia.
      - eexists. split; [exact Gb|reflexivity].
      - intros used U1 U2. exact (snr_rows cmp OK ifit lbound ok fit tight st root G HI h b pg k li ri ld rd z z Hat Hg Hbr H1 Hzz H2 H3 H4 (HL _) HR used U1 U2).
    Qed.

    Lemma chg_sr pg k li ri ld rd z own :
      get st root = Some pg ->
      blt BMin z -> ble z (BAt k) -> (top G = 0 -> z = BAt k) -> blt z (shi G root) ->
      (forall rr, body tight G (top G) BMin z (mkPage (p_leaf pg) li ld k None (Some rr) false)) ->
      (forall ll, body tight G (top G) z (shi G root) (mkPage (p_leaf pg) ri rd (p_bound pg) (Some ll) None false)) ->
      ifit [(k, S (length st)); (rkey (p_bound pg) ri rd, length st)] ->
      (forall k c, In (k, c) (p_downs pg) -> exists k', In (k', c) (ld ++ rd)) ->
      (forall k c, In (k, c) (ld ++ rd) -> (exists k', In (k', c) (p_downs pg)) \/ own = Some c) ->
      (forall c, own = Some c -> exists k', In (k', c) (ld ++ rd)) ->
      (forall d0 k c, ld = d0 ++ [(k, c)] -> ble z (BAt k)) ->
      let st' := splitRoot tnull rkey st root pg k li ri ld rd in
      exists G', Inv tight st' root G' /\ tiled st' G' /\ chg root root own None st G st' G' /\
        (forall used, (top G = 0 -> forall x, In x li \/ In x ri <-> In x (p_items pg) \/ In x used) -> (top G <> 0 -> used = []) -> rows_add st G st' G' used).
    Proof.
      intros Hg H1 H2 H3 H4 HL HR Hf D1 D2 Ho L1 st'.
      assert (Hzz : ble z z) by (apply ble_refl; exact OK).
      pose (G' := rootG st root G z z). exists G'.
      assert (HI' := sr_inv cmp OK ifit lbound ok fit tnull rkey tight st root G HI pg k li ri ld rd z z Hg H1 Hzz H2 H3 H4 (HL _) (HR _) Hf). fold st' in HI'. fold G' in HI'.
      assert (At : forall h0 x, at_ G' h0 x <-> (h0 < top G /\ at_ G h0 x) \/ (h0 = top G /\ (x = S (length st) \/ x = length st)) \/ (h0 = S (top G) /\ x = root)) by exact (sr_at cmp ifit lbound ok fit tight st root G HI k z z H3).
      assert (Gr : get st' (length st) = Some (mkPage (p_leaf pg) ri rd (p_bound pg) (Some (S (length st))) None false)) by exact (sr_get_r tnull rkey st root G pg k li ri ld rd z H3).
      assert (Gl : get st' (S (length st)) = Some (mkPage (p_leaf pg) li ld k None (Some (length st)) false)) by exact (sr_get_l tnull rkey st root G pg k li ri ld rd z H3).
      assert (Gt := sr_get_root tnull rkey st root pg k li ri ld rd Hg). cbn zeta in Gt. fold st' in Gt.
      assert (Go := sr_get_other tnull rkey st root pg k li ri ld rd). fold st' in Go.
      assert (Slo : forall h0 x, at_ G h0 x -> slo G' x = slo G x) by exact (sr_slo cmp ifit lbound ok fit tight st root G HI k z z H3).
      assert (Shi : forall h0 x, at_ G h0 x -> shi G' x = shi G x) by exact (sr_shi cmp ifit lbound ok fit tight st root G HI k z z H3).
      assert (Shl : shi G' (S (length st)) = z) by exact (sr_shi_l st root G z z).
      assert (Slr : slo G' (length st) = z) by exact (sr_slo_r st root G z z).
      assert (Sll : slo G' (S (length st)) = BMin) by (eapply sr_slo_l; eassumption).
      assert (Shr : shi G' (length st) = shi G root) by (eapply sr_shi_r; eassumption).
      assert (Al : at_ G' (top G) (S (length st))) by (apply At; auto). assert (Ar : at_ G' (top G) (length st)) by (apply At; auto).
      pose proof (at_root _ _ _ _ _ _ _ _ _ HI) as Hat.
      assert (Lt : forall h0 x, at_ G h0 x -> x <> root -> h0 < top G).
      { intros h0 x Hx Hn. pose proof (at_le_top _ _ _ Hx). destruct (Nat.eq_dec h0 (top G)) as [E|E]; [|lia]. subst h0.
        destruct Hn. exact (at_top _ _ _ _ _ _ _ _ _ HI _ Hx). }
      assert (Hfr : forall h0 x, at_ G h0 x -> x < length st) by (intros h0 x Hx; exact (at_valid _ _ _ _ _ _ _ _ _ HI _ _ Hx)).
      assert (Emax : shi G root = BMax).
      { destruct (HT _ _ _ Hat Hg) as [A _]. destruct (root_right _ _ _ _ _ _ _ _ _ HI pg Hg) as [E _]. rewrite E in A. exact A. }
      split; [exact HI'|]. split.
      { intros h0 x px Hx Hgx. apply At in Hx as [[Hlt Hx]|[[-> [->| ->]]|[-> ->]]].
        - assert (Hn : x <> root) by (intros ->; pose proof (at_root_top _ _ _ _ _ _ _ _ _ HI _ Hx); lia).
          destruct (page_get cmp ifit lbound ok fit tight st root G HI _ _ Hx) as [qx Hq]. rewrite (Go x qx Hn Hq) in Hgx. injection Hgx as <-.
          destruct (HT _ _ _ Hx Hq) as [A B]. rewrite (Shi _ _ Hx). split; [|exact B]. destruct (p_right qx) as [r0|] eqn:Er; [|exact A].
          rewrite A. symmetry. eapply Slo. eapply (right_at cmp ifit lbound ok fit tight st root G HI); [exact Hx|exact Hq|exact Er].
        - rewrite Gl in Hgx. injection Hgx as <-. cbn [p_right p_downs]. rewrite Shl, Slr. split; [reflexivity|]. intros _. exact L1.
        - rewrite Gr in Hgx. injection Hgx as <-. cbn [p_right p_downs]. rewrite Shr. split; [exact Emax|]. congruence.
        - rewrite Gt in Hgx. injection Hgx as <-. cbn [p_right p_downs]. rewrite (Shi _ _ Hat). split; [exact Emax|]. congruence. }
      split.
      - assert (Dn : forall c k', In (k', c) (ld ++ rd) -> exists p' px' k1, at_ G' (top G) p' /\ get st' p' = Some px' /\ In (k1, c) (p_downs px') /\ ble (slo G root) (slo G' p')).
        { intros c k' Hk'. rewrite (root_slo _ _ _ _ _ _ _ _ _ HI). apply in_app_iff in Hk' as [Hk'|Hk'].
          - eexists (S (length st)), _, k'. split; [exact Al|]. split; [exact Gl|]. split; [exact Hk'|]. apply ble_min.
          - eexists (length st), _, k'. split; [exact Ar|]. split; [exact Gr|]. split; [exact Hk'|]. apply ble_min. }
        constructor.
        + intros h0 x Hx Hn. apply At. left. split; [exact (Lt _ _ Hx Hn)|exact Hx].
        + assert (Hr' := at_root _ _ _ _ _ _ _ _ _ HI'). apply At in Hr' as [[Hlt Hx]|[[E [Hx|Hx]]|[E _]]]; try lia.
          * pose proof (at_root_top _ _ _ _ _ _ _ _ _ HI _ Hx). lia.
        + congruence.
        + exact Slo.
        + intros h0 x Hx. rewrite (Shi _ _ Hx). apply ble_refl. exact OK.
        + intros h0 x Hx _. exact (Shi _ _ Hx).
        + intros h0 x px Hx Hn Hgx. exists px. rewrite (Go x px Hn Hgx). auto.
        + intros h0 p px kk c Hp Hgp Hin. destruct (Nat.eq_dec p root) as [->|Hn].
          * rewrite Hg in Hgp. injection Hgp as <-. destruct (D1 _ _ Hin) as [k' Hk'].
            rewrite (at_root_top _ _ _ _ _ _ _ _ _ HI _ Hp). exact (Dn _ _ Hk').
          * exists p, px, kk. split; [apply At; left; split; [exact (Lt _ _ Hp Hn)|exact Hp]|]. split; [exact (Go p px Hn Hgp)|].
            split; [exact Hin|]. rewrite (Slo _ _ Hp). apply ble_refl. exact OK.
        + intros c h0 Eo Hc. destruct (Ho c Eo) as [k' Hk']. destruct (Dn _ _ Hk') as (p' & px' & k1 & P1 & P2 & P3 & P4).
          destruct (down_level cmp ifit lbound ok fit tight st' root G' HI' _ _ _ _ _ P1 P2 P3) as (h1 & E1 & Hc1).
          exists p', px', k1. split; [|auto]. assert (h1 = h0) as <-; [|rewrite <- E1; exact P1].
          apply At in Hc1 as [[_ Hc1]|[[E _]|[E _]]]; [|lia|lia]. exact (at_inj _ _ _ _ _ _ _ _ _ HI _ _ _ Hc1 Hc).
        + assert (Dold : forall kk c, In (kk, c) (ld ++ rd) -> (exists h' q qx k', at_ G h' q /\ get st q = Some qx /\ In (k', c) (p_downs qx)) \/ own = Some c).
          { intros kk c Hin. destruct (D2 _ _ Hin) as [[k' Hk']|E]; [|auto]. left. exists (top G), root, pg, k'. auto. }
          assert (Nf : forall c, length st <= c -> (forall h0, ~ at_ G h0 c) /\ @None nat <> Some c).
          { intros c Hc. split; [|discriminate]. intros h0 H0. apply Hfr in H0. lia. }
          intros h0 p px kk c Hp Hgp Hin. apply At in Hp as [[Hlt Hp]|[[-> [->| ->]]|[-> ->]]].
          * assert (Hn : p <> root) by (intros ->; pose proof (at_root_top _ _ _ _ _ _ _ _ _ HI _ Hp); lia).
            destruct (page_get cmp ifit lbound ok fit tight st root G HI _ _ Hp) as [qx Hq]. rewrite (Go p qx Hn Hq) in Hgp. injection Hgp as <-.
            left. exists h0, p, qx, kk. auto.
          * rewrite Gl in Hgp. injection Hgp as <-. cbn [p_downs] in Hin. destruct (Dold kk c) as [K|K]; [apply in_app_iff; auto|auto|auto].
          * rewrite Gr in Hgp. injection Hgp as <-. cbn [p_downs] in Hin. destruct (Dold kk c) as [K|K]; [apply in_app_iff; auto|auto|auto].
          * rewrite Gt in Hgp. injection Hgp as <-. cbn [p_downs] in Hin. right; right. apply Nf. destruct Hin as [E|[E|[]]]; injection E as _ <-; lia.
        + intros h0 c Hc. apply At in Hc as [[_ Hc]|[[-> Hc]|[_ ->]]]; [left; eauto| |left; eauto].
          right; right. destruct Hc as [E|E]; rewrite E.
          * eexists root, _, k. split; [apply At; auto|]. split; [exact Gt|left; reflexivity].
          * eexists root, _, (rkey (p_bound pg) ri rd). split; [apply At; auto|]. split; [exact Gt|right; left; reflexivity].
        + assert (Hr' := at_root _ _ _ _ _ _ _ _ _ HI'). apply At in Hr' as [[Hlt Hx]|[[E _]|[E _]]]; lia.
      - intros used U1 U2. exact (sr_rows cmp OK ifit lbound ok fit tnull rkey tight st root G HI pg k li ri ld rd z z Hg H1 Hzz H2 H3 H4 (HL _) (HR _) Hf used U1 U2).
    Qed.
  End Chg.
End CInv.
