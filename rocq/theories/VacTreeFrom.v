(** The structural invariant follows from the invariant of BTreeInv.v on a complete tree, and gives it back when no
    internal page is childless. *)
From Verif Require Import Ord BTree BTreeInv BTreeFind VacuumTree VacTreeInv.
From Coq Require Import List ZArith Bool Arith Lia.
Import ListNotations.

Section From.
  Context {T : Type}.
  Variable cmp : T -> T -> Z.
  Hypothesis OK : total_cmp cmp.
  Variable ifit : list (T * nat) -> Prop.
  Variable ok : T -> Prop.
  Variable fit : list T -> Prop.
  Notation page := (page T).
  Notation store := (list page).
  Notation ble := (ble cmp).
  Notation blt := (blt cmp).
  Notation Inv := (Inv cmp ifit false ok fit).
  Notation Str := (Str cmp ifit ok fit).

  Lemma inv_weaken tight st root G : Inv tight st root G -> Inv false st root G.
  Proof.
    intros [H1 H2 H3 H4]. constructor; auto. intros h b Hat. destruct (H4 h b Hat) as (pg & A & B & C & D & E & F & Hb). exists pg. repeat (split; [assumption|]).
    destruct h as [|h]; [|exact Hb]. destruct Hb as (P1 & P2 & P3 & P4 & P5 & P6 & _). repeat (split; [assumption|]). intros [X|X]; discriminate.
  Qed.

  Section Inv2Str.
    Context (st : store) (root : nat) (G : @ghost T).
    Hypothesis HI : Inv false st root G.
    Hypothesis HC : complete st root G.
    Notation pfacts := (page_facts cmp ifit false ok fit false st root G HI).

    Definition bcmpN (a b : nat) : Z := bcmp cmp (slo G a) (slo G b).
    Lemma bcmpN_total : total_cmp bcmpN.
    Proof.
      pose proof (bcmp_total cmp OK) as B. constructor; unfold bcmpN.
      - intro x. apply (tc_refl _ B).
      - intros x y. apply (tc_anti _ B).
      - intros x y z. apply (tc_trans _ B).
    Qed.
    Lemma level_split h L b : nth_error (lv G) h = Some L -> In b L -> at_ G h b.
    Proof. intros H Hb. exists L. auto. Qed.
    Lemma level_sorted h L : nth_error (lv G) h = Some L -> ssorted bcmpN L.
    Proof.
      intro HL. assert (K : forall L2 L1, L = L1 ++ L2 -> ssorted bcmpN L2).
      { induction L2 as [|b L2 IH]; intros L1 E; [constructor|]. constructor.
        - apply (IH (L1 ++ [b])). rewrite <- app_assoc. exact E.
        - rewrite Forall_forall. intros b' Hb'. rewrite E in HL. pose proof (level_order cmp OK ifit false ok fit false st root G HI h L1 b L2 HL b' Hb') as Hle.
          assert (Hat : at_ G h b) by (eexists; split; [exact HL|apply in_app_iff; right; left; reflexivity]).
          exact (blt_le_trans cmp OK _ _ _ (slo_lt_shi cmp ifit false ok fit false st root G HI h b Hat) Hle). }
      apply (K L []). reflexivity.
    Qed.
    Lemma int_facts h b pg : at_ G (S h) b -> get st b = Some pg -> int_body cmp ifit false G h (slo G b) (shi G b) pg.
    Proof. intros Hat Hg. destruct (pfacts _ _ _ Hat Hg) as (_ & _ & _ & _ & _ & Hb). exact Hb. Qed.
    (** every child's range lies in its page's *)
    Lemma kid_range h b pg kc : at_ G (S h) b -> get st b = Some pg -> In kc (p_downs pg) -> at_ G h (snd kc) /\ ble (slo G b) (slo G (snd kc)) /\ ble (shi G (snd kc)) (shi G b).
    Proof.
      intros Hat Hg Hin. destruct (int_facts h b pg Hat Hg) as (_ & _ & Hk & Hd & _ & (kc0 & d & Ed & Elo)). rewrite Forall_forall in Hk. split; [exact (Hk kc Hin)|].
      assert (Hs : forall kc, In kc (p_downs pg) -> blt (slo G (snd kc)) (shi G (snd kc))) by (intros kc' H'; exact (slo_lt_shi cmp ifit false ok fit false st root G HI _ _ (Hk _ H'))).
      split.
      - rewrite Elo, Ed in *. destruct Hin as [<-|Hin]; [apply (ble_refl cmp OK)|]. destruct kc0 as [k0 c0]. apply (ble_trans cmp OK _ (shi G c0)).
        + apply blt_ble. apply (Hs (k0, c0)). left. reflexivity.
        + exact (dok_slo_le cmp OK (slo G) (shi G) _ _ d k0 c0 Hs Hd kc Hin).
      - clear Ed Elo kc0 d Hk. revert Hd Hs Hin. generalize (p_downs pg) as d. induction d as [|[k c] d IH]; intros Hd Hs Hin; [destruct Hin|]. destruct Hd as [Hsl Hd].
        destruct Hin as [<-|Hin]; [|apply IH; auto; intros kc' H'; apply Hs; right; exact H']. cbn [snd]. destruct d as [|[k' c'] d]; cbn [slot_ok] in Hsl; [apply Hsl|].
        apply (ble_trans cmp OK _ (slo G c')); [apply Hsl|]. apply (ble_trans cmp OK _ (shi G c')).
        + apply blt_ble. apply (Hs (k', c')). right. left. reflexivity.
        + clear IH Hsl. assert (Hs' : forall kc, In kc ((k', c') :: d) -> blt (slo G (snd kc)) (shi G (snd kc))) by (intros kc' H'; apply Hs; right; exact H'). clear Hs. revert k' c' Hd Hs'.
          induction d as [|[k2 c2] d IH]; intros k' c' [Hsl Hd] Hs'; cbn [slot_ok] in Hsl; [apply Hsl|].
          apply (ble_trans cmp OK _ (slo G c2)); [apply Hsl|]. apply (ble_trans cmp OK _ (shi G c2)); [apply blt_ble; apply (Hs' (k2, c2)); right; left; reflexivity|].
          apply (IH k2 c2 Hd). intros kc' H'. apply Hs'. right. exact H'.
    Qed.
    Lemma under_range : forall h b x, at_ G h b -> In x (under h st b) -> at_ G 0 x /\ ble (slo G b) (slo G x) /\ ble (shi G x) (shi G b).
    Proof.
      induction h as [|h IH]; intros b x Hat Hx; cbn [under] in Hx.
      - destruct Hx as [<-|[]]. split; [exact Hat|]. split; apply (ble_refl cmp OK).
      - apply in_flat_map in Hx as (c & Hc & Hx). unfold kids in Hc. destruct (get st b) as [pg|] eqn:Hg; [|destruct Hc]. apply in_map_iff in Hc as (kc & <- & Hin).
        destruct (kid_range h b pg kc Hat Hg Hin) as (H1 & H2 & H3). destruct (IH (snd kc) x H1 Hx) as (H4 & H5 & H6). split; [exact H4|]. split; eapply (ble_trans cmp OK); eauto.
    Qed.
    Lemma dok_sorted h lo hi d : dok cmp (slo G) (shi G) lo hi d -> Forall (fun kc => at_ G h (snd kc)) d -> ssorted bcmpN (map snd d).
    Proof.
      induction d as [|[k c] d IH]; intros Hd Hk; [constructor|]. inversion Hk as [|? ? Hc Hk']; subst. cbn [map]. constructor; [apply IH; [apply Hd|exact Hk']|].
      rewrite Forall_forall. intros c' Hc'. apply in_map_iff in Hc' as (kc & <- & Hin). rewrite Forall_forall in Hk.
      assert (Hs : forall kc, In kc ((k, c) :: d) -> blt (slo G (snd kc)) (shi G (snd kc))) by (intros kc' H'; exact (slo_lt_shi cmp ifit false ok fit false st root G HI _ _ (Hk _ H'))).
      exact (blt_le_trans cmp OK _ _ _ (Hs (k, c) (or_introl eq_refl)) (dok_slo_le cmp OK (slo G) (shi G) _ _ d k c Hs Hd kc Hin)).
    Qed.
    Lemma kids_eq h L L' : nth_error (lv G) h = Some L -> nth_error (lv G) (S h) = Some L' -> flat_map (kids st) L' = L.
    Proof.
      intros HL HL'. apply (ssorted_ext bcmpN bcmpN_total).
      - assert (K : forall L2 L1, L' = L1 ++ L2 -> ssorted bcmpN (flat_map (kids st) L2)).
        { induction L2 as [|b L2 IH]; intros L1 E; [constructor|]. cbn [flat_map]. assert (Hat : at_ G (S h) b) by (exists L'; split; [exact HL'|rewrite E; apply in_app_iff; right; left; reflexivity]).
          destruct (page_get cmp ifit false ok fit false st root G HI _ _ Hat) as [pg Hg]. unfold kids at 1. rewrite Hg. apply ssorted_app. split; [|split].
          - destruct (int_facts h b pg Hat Hg) as (_ & _ & Hk & Hd & _). exact (dok_sorted h _ _ _ Hd Hk).
          - apply (IH (L1 ++ [b])). rewrite <- app_assoc. exact E.
          - intros x y Hx Hy. apply in_map_iff in Hx as (kc & <- & Hin). apply in_flat_map in Hy as (b' & Hb' & Hy).
            assert (Hat' : at_ G (S h) b') by (exists L'; split; [exact HL'|rewrite E; apply in_app_iff; right; right; exact Hb']).
            unfold kids in Hy. destruct (get st b') as [pg'|] eqn:Hg'; [|destruct Hy]. apply in_map_iff in Hy as (kc' & <- & Hin').
            destruct (kid_range h b pg kc Hat Hg Hin) as (H1 & _ & H3). destruct (kid_range h b' pg' kc' Hat' Hg' Hin') as (_ & H5 & _).
            assert (Hlo : ble (shi G b) (slo G b')) by (rewrite E in HL'; exact (level_order cmp OK ifit false ok fit false st root G HI _ _ _ _ HL' b' Hb')).
            unfold bcmpN. change (blt (slo G (snd kc)) (slo G (snd kc'))). apply (blt_le_trans cmp OK _ (shi G (snd kc))); [exact (slo_lt_shi cmp ifit false ok fit false st root G HI _ _ H1)|].
            eapply (ble_trans cmp OK); [exact H3|]. eapply (ble_trans cmp OK); eauto. }
        apply (K L' []). reflexivity.
      - exact (level_sorted h L HL).
      - intro c. split.
        + intro Hc. apply in_flat_map in Hc as (b & Hb & Hc). unfold kids in Hc. destruct (get st b) as [pg|] eqn:Hg; [|destruct Hc]. apply in_map_iff in Hc as (kc & <- & Hin).
          destruct (kid_range h b pg kc (level_split _ _ _ HL' Hb) Hg Hin) as ((L2 & H2 & H3) & _). rewrite HL in H2. injection H2 as ->. exact H3.
        + intro Hc. assert (Hat : at_ G h c) by (exists L; auto). assert (Hn : c <> root).
          { apply (at_not_root cmp ifit false ok fit false st root G HI h c Hat). apply nth_some_lt in HL'. unfold top. lia. }
          destruct (HC h c Hat Hn (fun F => F)) as (p & pg & k & (L2 & H2 & H3) & Hg & Hin). rewrite HL' in H2. injection H2 as <-. apply in_flat_map. exists p. split; [exact H3|].
          unfold kids. rewrite Hg. apply in_map_iff. exists (k, c). auto.
    Qed.
    Lemma inv_str : Str st root (lv G).
    Proof.
      assert (Hfull : full st (lv G)).
      { intros h L b HL Hb. pose proof (level_split _ _ _ HL Hb) as Hat. destruct (page_get cmp ifit false ok fit false st root G HI _ _ Hat) as [pg Hg].
        destruct (int_facts h b pg Hat Hg) as (_ & _ & _ & _ & _ & (kc & d & E & _)). unfold kids. rewrite Hg, E. discriminate. }
      constructor.
      - exact (I_top _ _ _ _ _ _ _ _ _ HI).
      - exact (I_nodup _ _ _ _ _ _ _ _ _ HI).
      - exact (I_links _ _ _ _ _ _ _ _ _ HI).
      - exact kids_eq.
      - intros h L b HL Hb. pose proof (level_split _ _ _ HL Hb) as Hat. destruct (page_get cmp ifit false ok fit false st root G HI _ _ Hat) as [pg Hg]. exists pg. split; [exact Hg|].
        destruct (pfacts _ _ _ Hat Hg) as (H1 & H2 & _ & _ & _ & Hbd). split; [exact H1|]. split; [exact H2|]. split; intro E.
        + subst h. destruct Hbd as (_ & P1 & P2 & P3 & P4 & _). auto.
        + destruct h as [|h]; [congruence|]. destruct Hbd as (P1 & P2 & _). auto.
      - intros L1 b L2 pg HL Hg. assert (Hat : at_ G 0 b) by (eexists; split; [exact HL|apply in_app_iff; right; left; reflexivity]).
        destruct (pfacts _ _ _ Hat Hg) as (_ & _ & Hlt & _ & _ & Hbd). destruct Hbd as (Ehi & _ & _ & _ & _ & Hrng & _).
        pose proof (I_links _ _ _ _ _ _ _ _ _ HI _ _ HL) as Hl. apply links_at in Hl as (pg' & Hg' & Hr & _). rewrite Hg in Hg'. injection Hg' as <-.
        assert (Hhi : L2 <> [] -> shi G b = BAt (p_bound pg)) by (intro H; rewrite Ehi; unfold hi_of; rewrite Hr; destruct L2; [congruence|reflexivity]).
        split.
        + intros a pa Ha Hga. apply in_split in Ha as (A1 & A2 & ->).
          assert (HLa : nth_error (lv G) 0 = Some (A1 ++ a :: (A2 ++ b :: L2))) by (rewrite HL, <- app_assoc; reflexivity).
          assert (Hata : at_ G 0 a) by (eexists; split; [exact HLa|apply in_app_iff; right; left; reflexivity]).
          destruct (pfacts _ _ _ Hata Hga) as (_ & _ & _ & _ & _ & (Ea & _)).
          pose proof (I_links _ _ _ _ _ _ _ _ _ HI _ _ HLa) as Hla. apply links_at in Hla as (pa' & Hga' & Hra & _). rewrite Hga in Hga'. injection Hga' as <-.
          assert (Ea' : shi G a = BAt (p_bound pa)) by (rewrite Ea; unfold hi_of; rewrite Hra; destruct A2; reflexivity).
          pose proof (level_order cmp OK ifit false ok fit false st root G HI 0 A1 a (A2 ++ b :: L2) HLa b ltac:(apply in_app_iff; right; left; reflexivity)) as Hab. rewrite Ea' in Hab. split.
          * intros x Hx. destruct (Hrng x Hx) as [Hx1 _]. exact (ble_lt_trans cmp OK _ _ _ Hab Hx1).
          * intro H. rewrite (Hhi H) in Hlt. exact (ble_lt_trans cmp OK _ _ _ Hab Hlt).
        + intros H x Hx. destruct (Hrng x Hx) as [_ Hx2]. rewrite (Hhi H) in Hx2. exact Hx2.
      - intros h L1 b L2 pg d1 k c d2 x px HL Hg Ed Hnl Hx Hgx. assert (Hat : at_ G (S h) b) by (eexists; split; [exact HL|apply in_app_iff; right; left; reflexivity]).
        destruct (int_facts h b pg Hat Hg) as (_ & _ & Hk & Hd & _ & _).
        pose proof (I_links _ _ _ _ _ _ _ _ _ HI _ _ HL) as Hl. apply links_at in Hl as (pg' & Hg' & Hr & _). rewrite Hg in Hg'. injection Hg' as <-.
        rewrite Ed in Hd, Hk. rewrite Forall_forall in Hk. pose proof (Hk (k, c) ltac:(apply in_app_iff; right; left; reflexivity)) as Hc. cbn [snd] in Hc.
        apply (dok_at cmp OK) in Hd as [Hsl _]. assert (Hck : ble (shi G c) (BAt k)).
        { apply (slot_key cmp OK _ _ _ _ _ _ Hsl). destruct Hnl as [H|H]; [left; exact H|right]. unfold rightmost. rewrite Hr. destruct L2; [congruence|reflexivity]. }
        destruct (under_range h c x Hc Hx) as (H1 & _ & H3). destruct (pfacts _ _ _ H1 Hgx) as (_ & _ & _ & _ & _ & (Ex & _)). rewrite Ex in H3.
        pose proof (ble_trans cmp OK _ _ _ H3 Hck) as H. unfold hi_of in H. destruct (p_right px); [exact H|]. unfold BTreeInv.ble in H. cbn in H. lia.
      - intros h L1 b L2 pg x px HL Hne Hg Hx Hgx. assert (Hat : at_ G (S h) b) by (eexists; split; [exact HL|apply in_app_iff; right; left; reflexivity]).
        pose proof (I_links _ _ _ _ _ _ _ _ _ HI _ _ HL) as Hl. apply links_at in Hl as (pg' & Hg' & Hr & _). rewrite Hg in Hg'. injection Hg' as <-.
        destruct L2 as [|b' L2]; [congruence|]. cbn [hd_error] in Hr. destruct (pfacts _ _ _ Hat Hg) as (_ & _ & _ & _ & Hrt & _). destruct (Hrt b' Hr) as (R1 & R2 & _).
        destruct (under_range (S h) b x Hat Hx) as (H1 & _ & H3). destruct (pfacts _ _ _ H1 Hgx) as (_ & _ & _ & _ & _ & (Ex & _)). rewrite Ex in H3.
        pose proof (ble_trans cmp OK _ _ _ (ble_trans cmp OK _ _ _ H3 R1) R2) as H. unfold hi_of in H. destruct (p_right px); [exact H|]. unfold BTreeInv.ble in H. cbn in H. lia.
      - intros h b L HL. apply (Hfull h _ b HL). left. reflexivity.
      - intros h b L HL. apply (Hfull h _ b HL). apply in_app_iff. right. left. reflexivity.
    Qed.
    Lemma inv_full : full st (lv G).
    Proof.
      intros h L b HL Hb. pose proof (level_split _ _ _ HL Hb) as Hat. destruct (page_get cmp ifit false ok fit false st root G HI _ _ Hat) as [pg Hg].
      destruct (int_facts h b pg Hat Hg) as (_ & _ & _ & _ & _ & (kc & d & E & _)). unfold kids. rewrite Hg, E. discriminate.
    Qed.
  End Inv2Str.
End From.
