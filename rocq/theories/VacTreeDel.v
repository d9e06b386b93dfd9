(** The second pass of vacuum: deleting one childless page. *)
From Verif Require Import Ord BTree BTreeInv VacuumTree VacTreeInv VacTreeClean.
From Coq Require Import List ZArith Bool Arith Lia.
Import ListNotations.

Lemma nodup_split {A} (X Y X' Y' : list A) d : NoDup (X ++ d :: Y) -> X ++ d :: Y = X' ++ d :: Y' -> X = X' /\ Y = Y'.
Proof.
  revert X'. induction X as [|x X IH]; intros X' N E.
  - destruct X' as [|x' X']; cbn in E; [injection E as ->; auto|]. injection E as <- E. cbn in N. inversion N as [|? ? Hn _]; subst. exfalso. apply Hn. apply in_app_iff. right. left. reflexivity.
  - cbn in N. inversion N as [|? ? Hn N']; subst. destruct X' as [|x' X']; cbn in E.
    + injection E as -> E. exfalso. apply Hn. apply in_app_iff. right. left. reflexivity.
    + injection E as <- E. destruct (IH X' N' E) as [-> ->]. auto.
Qed.
Lemma insert_split {A} (X Y : list A) d L1' b L2' : X ++ Y = L1' ++ b :: L2' ->
  exists L1 L2, X ++ d :: Y = L1 ++ b :: L2 /\ incl L1' L1 /\ incl L2' L2 /\ (L2' <> [] -> L2 <> []).
Proof.
  intro E. apply app_eq_app in E as (l & [[E1 E2]|[E1 E2]]).
  - destruct l as [|b' l]; cbn in E2.
    + subst. rewrite app_nil_r. exists (L1' ++ [d]), L2'. rewrite <- app_assoc. split; [reflexivity|]. split; [apply incl_appl, incl_refl|]. split; [apply incl_refl|auto].
    + injection E2 as <- ->. exists L1', (l ++ d :: Y). subst. rewrite <- app_assoc. split; [reflexivity|]. split; [apply incl_refl|]. split.
      * intros x Hx. apply in_app_iff in Hx. apply in_app_iff. destruct Hx; [auto|right; right; assumption].
      * intros _ H. apply app_eq_nil in H as [_ H]. discriminate.
  - subst. exists (X ++ d :: l), L2'. rewrite <- app_assoc. split; [reflexivity|]. split; [|split; [apply incl_refl|auto]].
    intros x Hx. apply in_app_iff in Hx. apply in_app_iff. destruct Hx; [auto|right; right; assumption].
Qed.
Lemma upd_app {A} (l1 l2 : list A) x y : upd (l1 ++ x :: l2) (length l1) y = l1 ++ y :: l2.
Proof. induction l1 as [|a l1 IH]; [reflexivity|]. cbn. f_equal. exact IH. Qed.

Section Del.
  Context {T : Type}.
  Variable cmp : T -> T -> Z.
  Variable ifit : list (T * nat) -> Prop.
  Variable ok : T -> Prop.
  Variable fit : list T -> Prop.
  Hypothesis Hifit : forall d1 kc d2, ifit (d1 ++ kc :: d2) -> ifit (d1 ++ d2).
  Notation page := (page T).
  Notation store := (list page).
  Notation Str := (Str cmp ifit ok fit).

  Section Step.
    Context (st : store) (root : nat) (lvl : list (list nat)) (HS : Str st root lvl).
    Context (h : nat) (A : list nat) (l d r : nat) (B : list nat) (HL : nth_error lvl h = Some (A ++ l :: d :: r :: B)).
    Context (P1 : list nat) (p : nat) (P2 : list nat) (HP : nth_error lvl (S h) = Some (P1 ++ p :: P2)).
    Context (pp : page) (D1 : list (T * nat)) (k : T) (D2 : list (T * nat)) (Hpp : get st p = Some pp) (ED : p_downs pp = D1 ++ (k, d) :: D2).
    Context (pd pl pr : page) (Hpd : get st d = Some pd) (Hpl : get st l = Some pl) (Hpr : get st r = Some pr) (Hno : noItems pd = true).

    Definition pp' : page := mkPage (p_leaf pp) (p_items pp) (D1 ++ D2) (p_bound pp) (p_left pp) (p_right pp) (p_deleted pp).
    Definition pd' : page := mkPage false (p_items pd) (p_downs pd) (p_bound pd) (p_left pd) (p_right pd) true.
    Definition st' : store := upd (upd (upd (upd st l (with_right pl (Some r))) r (with_left pr (Some l))) p pp') d pd'.
    Definition lvl' : list (list nat) := upd lvl h (A ++ l :: r :: B).

    Lemma d_nodup : NoDup (A ++ l :: d :: r :: B).
    Proof. exact (s_nodup cmp ifit ok fit st root lvl HS h _ HL). Qed.
    Lemma p_nodup : NoDup (P1 ++ p :: P2).
    Proof. exact (s_nodup cmp ifit ok fit st root lvl HS (S h) _ HP). Qed.
    Lemma in_l : In l (A ++ l :: d :: r :: B). Proof. apply in_app_iff. right. left. reflexivity. Qed.
    Lemma in_d : In d (A ++ l :: d :: r :: B). Proof. apply in_app_iff. right. right. left. reflexivity. Qed.
    Lemma in_r : In r (A ++ l :: d :: r :: B). Proof. apply in_app_iff. right. right. right. left. reflexivity. Qed.
    Lemma in_p : In p (P1 ++ p :: P2). Proof. apply in_app_iff. right. left. reflexivity. Qed.
    Lemma ne_lp : l <> p. Proof. intro E. exact (n_Sn _ (s_inj cmp ifit ok fit st root lvl HS _ _ _ _ l HL HP in_l (eq_ind_r (fun x => In x (P1 ++ p :: P2)) in_p E))). Qed.
    Lemma ne_dp : d <> p. Proof. intro E. exact (n_Sn _ (s_inj cmp ifit ok fit st root lvl HS _ _ _ _ d HL HP in_d (eq_ind_r (fun x => In x (P1 ++ p :: P2)) in_p E))). Qed.
    Lemma ne_rp : r <> p. Proof. intro E. exact (n_Sn _ (s_inj cmp ifit ok fit st root lvl HS _ _ _ _ r HL HP in_r (eq_ind_r (fun x => In x (P1 ++ p :: P2)) in_p E))). Qed.
    Lemma ne_ld : l <> d /\ l <> r /\ d <> r /\ ~ In l A /\ ~ In d A /\ ~ In r A /\ ~ In l B /\ ~ In d B /\ ~ In r B.
    Proof.
      pose proof d_nodup as N. apply nodup_app in N as (_ & N & D). inversion N as [|? ? N1 N2]; subst. inversion N2 as [|? ? N3 N4]; subst. inversion N4 as [|? ? N5 N6]; subst. cbn [In] in *.
      repeat split; try (intro E; subst; tauto); try (intro Ha; apply (D _ Ha); cbn; tauto); tauto.
    Qed.

    Lemma get_d : get st' d = Some pd'.
    Proof. unfold get, st'. apply nth_upd_same. rewrite !upd_length. eapply nth_some_lt; eauto. Qed.
    Lemma get_p : get st' p = Some pp'.
    Proof. unfold get, st'. rewrite nth_upd_other by (exact ne_dp). apply nth_upd_same. rewrite !upd_length. eapply nth_some_lt; eauto. Qed.
    Lemma get_r : get st' r = Some (with_left pr (Some l)).
    Proof.
      destruct ne_ld as (_ & _ & H & _). unfold get, st'. rewrite nth_upd_other by exact H. rewrite nth_upd_other by (apply not_eq_sym; exact ne_rp). apply nth_upd_same. rewrite !upd_length. eapply nth_some_lt; eauto.
    Qed.
    Lemma get_l : get st' l = Some (with_right pl (Some r)).
    Proof.
      destruct ne_ld as (H1 & H2 & _). unfold get, st'. rewrite nth_upd_other by (apply not_eq_sym; exact H1). rewrite nth_upd_other by (apply not_eq_sym; exact ne_lp). rewrite nth_upd_other by (apply not_eq_sym; exact H2).
      apply nth_upd_same. eapply nth_some_lt; eauto.
    Qed.
    Lemma get_other b : b <> d -> b <> p -> b <> r -> b <> l -> get st' b = get st b.
    Proof. intros. unfold get, st'. rewrite !nth_upd_other by congruence. reflexivity. Qed.
    Lemma get_none b : get st b = None -> get st' b = None.
    Proof. unfold get, st'. intro H. apply nth_error_None in H. apply nth_error_None. rewrite !upd_length. exact H. Qed.

    Lemma noItems_pd : p_items pd = [] /\ p_downs pd = [].
    Proof. unfold noItems in Hno. destruct (p_items pd), (p_downs pd); try discriminate. auto. Qed.
    Lemma del_ok : deletePage st d p (S (length D1)) = Some (Some st').
    Proof.
      unfold deletePage. rewrite Hpd.
      pose proof (S_links _ _ _ _ _ _ _ HS h _ HL) as Hln. assert (Hln' := Hln).
      replace (A ++ l :: d :: r :: B) with ((A ++ [l]) ++ d :: r :: B) in Hln by (rewrite <- app_assoc; reflexivity). apply links_at in Hln as (pg & Hg & Hr & Hl). rewrite Hpd in Hg. injection Hg as <-.
      rewrite Hl, Hr. cbn [hd_error]. replace (match A ++ [l] with [] => None | _ => Some (last (A ++ [l]) 0) end) with (Some l) by (rewrite last_last; destruct A; reflexivity).
      rewrite Hpl, Hpr, Hpp. apply links_at in Hln' as (pg & Hg & Hr' & _). rewrite Hpl in Hg. injection Hg as <-. rewrite Hr'. cbn [hd_error]. rewrite Nat.eqb_refl.
      pose proof (S_links _ _ _ _ _ _ _ HS h _ HL) as Hln. replace (A ++ l :: d :: r :: B) with ((A ++ [l; d]) ++ r :: B) in Hln by (rewrite <- app_assoc; reflexivity). apply links_at in Hln as (pg & Hg & _ & Hl').
      rewrite Hpr in Hg. injection Hg as <-. rewrite Hl'. replace (match A ++ [l; d] with [] => None | _ => Some (last (A ++ [l; d]) 0) end) with (Some d) by (replace (A ++ [l; d]) with ((A ++ [l]) ++ [d]) by (rewrite <- app_assoc; reflexivity); rewrite last_last; destruct A; reflexivity).
      rewrite Nat.eqb_refl, Hno. cbn [andb]. unfold st', pp', pd'. do 3 f_equal. f_equal. unfold deleteDown. rewrite ED. replace (S (length D1) - 1) with (length D1 + 0) by lia. rewrite firstn_app_2. cbn [firstn]. rewrite app_nil_r.
      replace (S (length D1)) with (length D1 + 1) by lia. rewrite skipn_app. replace (length D1 + 1 - length D1) with 1 by lia. rewrite skipn_all2 by lia. reflexivity.
      rewrite Hl, Hr. cbn [hd_error]. rewrite last_last. destruct A; reflexivity.
    Qed.

    (** what stays the same *)
    Lemma same b pg : get st b = Some pg -> exists pg', get st' b = Some pg' /\ p_items pg' = p_items pg /\ p_bound pg' = p_bound pg /\
      (b <> d -> p_leaf pg' = p_leaf pg /\ p_deleted pg' = p_deleted pg) /\ (b <> p -> p_downs pg' = p_downs pg) /\ (b <> r -> p_left pg' = p_left pg) /\ (b <> l -> p_right pg' = p_right pg).
    Proof.
      intro Hg. destruct (Nat.eq_dec b d) as [->|N1]; [|destruct (Nat.eq_dec b p) as [->|N2]; [|destruct (Nat.eq_dec b r) as [->|N3]; [|destruct (Nat.eq_dec b l) as [->|N4]]]].
      - rewrite Hpd in Hg. injection Hg as <-. exists pd'. split; [exact get_d|]. cbn. intuition congruence.
      - rewrite Hpp in Hg. injection Hg as <-. exists pp'. split; [exact get_p|]. cbn. intuition congruence.
      - rewrite Hpr in Hg. injection Hg as <-. eexists. split; [exact get_r|]. cbn. intuition congruence.
      - rewrite Hpl in Hg. injection Hg as <-. eexists. split; [exact get_l|]. cbn. intuition congruence.
      - exists pg. rewrite get_other by assumption. auto 10.
    Qed.
    Lemma same_back b pg' : get st' b = Some pg' -> exists pg, get st b = Some pg /\ p_items pg' = p_items pg /\ p_bound pg' = p_bound pg /\
      (b <> d -> p_leaf pg' = p_leaf pg /\ p_deleted pg' = p_deleted pg) /\ (b <> p -> p_downs pg' = p_downs pg) /\ (b <> r -> p_left pg' = p_left pg) /\ (b <> l -> p_right pg' = p_right pg).
    Proof.
      intro Hg. destruct (get st b) as [pg|] eqn:E; [|rewrite (get_none b E) in Hg; discriminate]. exists pg. split; [reflexivity|]. destruct (same b pg E) as (pg2 & G & R). rewrite Hg in G. injection G as <-. exact R.
    Qed.
    Lemma kids_p : kids st' p = map snd (D1 ++ D2).
    Proof. unfold kids. rewrite get_p. reflexivity. Qed.
    Lemma kids_other b : b <> p -> kids st' b = kids st b.
    Proof.
      intro Hn. unfold kids. destruct (get st b) as [pg|] eqn:E; [|rewrite (get_none b E); reflexivity]. destruct (same b pg E) as (pg' & -> & _ & _ & _ & H & _). rewrite (H Hn). reflexivity.
    Qed.
    Lemma kids_p0 : kids st p = map snd D1 ++ d :: map snd D2.
    Proof. unfold kids. rewrite Hpp, ED, map_app. reflexivity. Qed.
    Lemma kids_d : kids st d = [].
    Proof. unfold kids. rewrite Hpd. rewrite (proj2 noItems_pd). reflexivity. Qed.
    Lemma kids_incl b : incl (kids st' b) (kids st b).
    Proof.
      destruct (Nat.eq_dec b p) as [->|N]; [|rewrite (kids_other b N); apply incl_refl]. rewrite kids_p, kids_p0, map_app. intros x Hx. apply in_app_iff in Hx. apply in_app_iff. destruct Hx; [auto|right; right; assumption].
    Qed.
    Lemma under_incl : forall h0 b, incl (under h0 st' b) (under h0 st b).
    Proof.
      induction h0 as [|h0 IH]; intro b; [apply incl_refl|]. cbn [under]. intros x Hx. apply in_flat_map in Hx as (c & Hc & Hx). apply in_flat_map. exists c. split; [apply kids_incl; exact Hc|apply IH; exact Hx].
    Qed.
    Lemma row_split : flat_map (kids st) P1 ++ map snd D1 = A ++ [l] /\ map snd D2 ++ flat_map (kids st) P2 = r :: B.
    Proof.
      pose proof (S_kids _ _ _ _ _ _ _ HS h _ _ HL HP) as E. rewrite flat_map_app in E. cbn [flat_map] in E. rewrite kids_p0 in E.
      assert (E' : (flat_map (kids st) P1 ++ map snd D1) ++ d :: (map snd D2 ++ flat_map (kids st) P2) = (A ++ [l]) ++ d :: (r :: B)) by (rewrite <- !app_assoc; cbn [app]; rewrite <- app_assoc in E; exact E).
      apply nodup_split in E'; [exact E'|]. rewrite E'. rewrite <- app_assoc. exact d_nodup.
    Qed.

    Lemma lvl_h : nth_error lvl' h = Some (A ++ l :: r :: B).
    Proof. apply nth_upd_same. eapply nth_some_lt; eauto. Qed.
    Lemma lvl_other h0 : h0 <> h -> nth_error lvl' h0 = nth_error lvl h0.
    Proof. intro H. apply nth_upd_other. congruence. Qed.
    Lemma lvl_split h0 L1' b L2' : nth_error lvl' h0 = Some (L1' ++ b :: L2') ->
      b <> d /\ exists L1 L2, nth_error lvl h0 = Some (L1 ++ b :: L2) /\ incl L1' L1 /\ incl L2' L2 /\ (L2' <> [] -> L2 <> []).
    Proof.
      intro E. destruct (Nat.eq_dec h0 h) as [->|Hn].
      - rewrite lvl_h in E. injection E as E. assert (E' : (A ++ [l]) ++ (r :: B) = L1' ++ b :: L2') by (rewrite <- app_assoc; exact E). split.
        + intros ->. assert (Hin : In d ((A ++ [l]) ++ r :: B)) by (rewrite E'; apply in_app_iff; right; left; reflexivity). destruct ne_ld as (H1 & _ & H2 & _ & H3 & _ & _ & H4 & _).
          apply in_app_iff in Hin as [Hin|[Hin|Hin]]; [apply in_app_iff in Hin as [Hin|[Hin|[]]]|..]; congruence.
        + destruct (insert_split (A ++ [l]) (r :: B) d L1' b L2' E') as (L1 & L2 & F1 & F2). exists L1, L2. rewrite <- app_assoc in F1. cbn [app] in F1. rewrite HL, F1. auto.
      - rewrite (lvl_other h0 Hn) in E. split.
        + intros ->. pose proof (s_inj cmp ifit ok fit st root lvl HS _ _ _ _ d HL E in_d ltac:(apply in_app_iff; right; left; reflexivity)). congruence.
        + exists L1', L2'. repeat split; auto using incl_refl.
    Qed.
    Lemma links_same : forall L prv, (forall b, In b L -> b <> r /\ b <> l) -> links st prv L -> links st' prv L.
    Proof.
      induction L as [|b L IH]; intros prv Hn Hl; [exact I|]. destruct Hl as (pg & Hg & H1 & H2 & H3). destruct (same b pg Hg) as (pg' & G & _ & _ & _ & _ & F1 & F2). destruct (Hn b (or_introl eq_refl)) as [N1 N2].
      exists pg'. split; [exact G|]. rewrite (F1 N1), (F2 N2). split; [exact H1|]. split; [exact H2|]. apply IH; [intros b' Hb'; apply Hn; right; exact Hb'|exact H3].
    Qed.
    Lemma links_del_gen : forall A0 prv, ~ In l A0 -> ~ In r A0 -> links st prv (A0 ++ l :: d :: r :: B) -> links st' prv (A0 ++ l :: r :: B).
    Proof.
      destruct ne_ld as (_ & _ & _ & _ & _ & _ & NB1 & _ & NB2). induction A0 as [|a A0 IH]; intros prv NA1 NA2 Hln; cbn [app links] in *.
      - destruct Hln as (pg & Hg & H1 & H2 & (pg2 & Hg2 & _ & _ & (pg3 & Hg3 & H31 & H32 & H33))). rewrite Hpl in Hg. injection Hg as <-. rewrite Hpr in Hg3. injection Hg3 as <-.
        eexists. split; [exact get_l|]. cbn. split; [exact H1|]. split; [reflexivity|]. eexists. split; [exact get_r|]. cbn. split; [reflexivity|]. split; [exact H32|]. apply links_same; [|exact H33].
        intros b Hb. split; intros ->; contradiction.
      - destruct Hln as (pg & Hg & H1 & H2 & H3). destruct (same a pg Hg) as (pg' & G & _ & _ & _ & _ & F1 & F2). exists pg'. split; [exact G|].
        rewrite (F1 ltac:(intros ->; apply NA2; left; reflexivity)), (F2 ltac:(intros ->; apply NA1; left; reflexivity)). split; [exact H1|]. split; [rewrite H2; destruct A0; reflexivity|]. apply IH; [intro Hx; apply NA1; right; exact Hx|intro Hx; apply NA2; right; exact Hx|exact H3].
    Qed.
    Lemma links_del : links st' None (A ++ l :: r :: B).
    Proof.
      destruct ne_ld as (_ & _ & _ & NA1 & _ & NA2 & _). apply links_del_gen; [assumption..|]. exact (S_links _ _ _ _ _ _ _ HS h _ HL).
    Qed.
    Lemma flat_kids L : ~ In p L -> flat_map (kids st') L = flat_map (kids st) L.
    Proof. induction L as [|b L IH]; intro H; [reflexivity|]. cbn [flat_map]. rewrite IH by (intro Hx; apply H; right; exact Hx). rewrite kids_other; [reflexivity|]. intros ->. apply H. left. reflexivity. Qed.
    Lemma not_p h0 L : h0 <> S h -> nth_error lvl h0 = Some L -> ~ In p L.
    Proof. intros Hn H Hin. apply Hn. exact (s_inj cmp ifit ok fit st root lvl HS _ _ _ _ p H HP Hin in_p). Qed.

    Theorem del_str : Str st' root lvl'.
    Proof.
      destruct row_split as [RS1 RS2]. constructor.
      - destruct (S_top _ _ _ _ _ _ _ HS) as [X E]. unfold lvl'. destruct (nth_error_split _ _ HL) as (l1 & l2 & El & En). destruct l2 as [|L2 l2 _] using rev_ind.
        + exfalso. assert (Hl : length lvl = S h) by (rewrite El, app_length, En; cbn; lia). pose proof (nth_some_lt _ _ _ HP). lia.
        + rewrite El in E. rewrite app_comm_cons, app_assoc in E. apply app_inj_tail in E as [E1 E2]. rewrite El, <- En. change ((l1 ++ (A ++ l :: d :: r :: B) :: l2 ++ [L2])) with (l1 ++ (A ++ l :: d :: r :: B) :: (l2 ++ [L2])). rewrite upd_app.
          exists (l1 ++ (A ++ l :: r :: B) :: l2). rewrite E2, <- app_assoc. reflexivity.
      - pose proof (S_nodup _ _ _ _ _ _ _ HS) as N. unfold lvl'. destruct (nth_error_split _ _ HL) as (l1 & l2 & El & En). rewrite El, <- En, upd_app. rewrite El in N. rewrite concat_app in *. cbn [concat] in *.
        replace (concat l1 ++ (A ++ l :: d :: r :: B) ++ concat l2) with ((concat l1 ++ A ++ [l]) ++ d :: (r :: B ++ concat l2)) in N by (rewrite <- !app_assoc; reflexivity).
        apply NoDup_remove_1 in N. rewrite <- !app_assoc in N. rewrite <- app_assoc. exact N.
      - intros h0 L H0. destruct (Nat.eq_dec h0 h) as [->|Hn].
        + rewrite lvl_h in H0. injection H0 as <-. exact links_del.
        + rewrite (lvl_other h0 Hn) in H0. apply links_same; [|exact (S_links _ _ _ _ _ _ _ HS h0 L H0)]. intros b Hb. split; intros ->; apply Hn.
          * exact (s_inj cmp ifit ok fit st root lvl HS _ _ _ _ r H0 HL Hb in_r).
          * exact (s_inj cmp ifit ok fit st root lvl HS _ _ _ _ l H0 HL Hb in_l).
      - intros h0 L L' H0 H1. destruct (Nat.eq_dec h0 h) as [->|Hn].
        + rewrite lvl_h in H0. injection H0 as <-. rewrite (lvl_other (S h) ltac:(lia)), HP in H1. injection H1 as <-. pose proof p_nodup as N. apply NoDup_remove_2 in N. rewrite in_app_iff in N.
          rewrite flat_map_app. cbn [flat_map]. rewrite !flat_kids by tauto. rewrite kids_p, map_app. transitivity ((flat_map (kids st) P1 ++ map snd D1) ++ (map snd D2 ++ flat_map (kids st) P2)); [rewrite <- !app_assoc; reflexivity|].
          rewrite RS1, RS2, <- app_assoc. reflexivity.
        + rewrite (lvl_other h0 Hn) in H0. assert (HL2 : S h0 = h -> nth_error lvl (S h0) = Some (A ++ l :: d :: r :: B)) by (intros ->; exact HL). destruct (Nat.eq_dec (S h0) h) as [Eh|Hn2].
          * specialize (HL2 Eh). rewrite Eh, lvl_h in H1. injection H1 as <-. rewrite flat_kids.
            -- rewrite <- (S_kids _ _ _ _ _ _ _ HS h0 _ _ H0 HL2), !flat_map_app. cbn [flat_map]. rewrite kids_d. reflexivity.
            -- intro Hin. apply (not_p (S h0) _ ltac:(lia) HL2). apply in_app_iff in Hin. apply in_app_iff. cbn [In] in *. tauto.
          * rewrite (lvl_other (S h0) Hn2) in H1. rewrite flat_kids; [exact (S_kids _ _ _ _ _ _ _ HS h0 _ _ H0 H1)|]. apply (not_p (S h0)); [lia|exact H1].
      - intros h0 L b H0 Hb. apply in_split in Hb as (L1' & L2' & ->). destruct (lvl_split h0 L1' b L2' H0) as (Hnd & L1 & L2 & H1 & _).
        destruct (S_page _ _ _ _ _ _ _ HS h0 _ b H1 ltac:(apply in_app_iff; right; left; reflexivity)) as (pg & Hg & Q1 & Q2 & Q3 & Q4). destruct (same b pg Hg) as (pg' & G & E1 & E2 & E3 & E4 & _).
        destruct (E3 Hnd) as [E5 E6]. exists pg'. split; [exact G|]. rewrite E5, E6, E1. split; [exact Q1|]. split; [exact Q2|]. split; intro Eh.
        + destruct (Q3 Eh) as (R1 & R2). split; [|exact R2]. rewrite E4; [exact R1|]. intros ->. apply (not_p h0 _ ltac:(lia) H1). apply in_app_iff. right. left. reflexivity.
        + destruct (Q4 Eh) as (R1 & R2). split; [exact R1|]. destruct (Nat.eq_dec b p) as [->|Hnp]; [|rewrite (E4 Hnp); exact R2].
          rewrite get_p in G. injection G as <-. cbn [pp' p_downs]. rewrite Hpp in Hg. injection Hg as <-. rewrite ED in R2. exact (Hifit _ _ _ R2).
      - intros L1' b L2' pg' H0 Hg'. destruct (lvl_split 0 L1' b L2' H0) as (Hnd & L1 & L2 & H1 & I1 & I2 & I3). destruct (same_back b pg' Hg') as (pg & Hg & E1 & E2 & _). rewrite E1, E2.
        destruct (S_leaf _ _ _ _ _ _ _ HS L1 b L2 pg H1 Hg) as [F1 F2]. split.
        + intros a pa' Ha Hga'. destruct (same_back a pa' Hga') as (pa & Hga & _ & Ea & _). rewrite Ea. destruct (F1 a pa (I1 a Ha) Hga) as [F3 F4]. split; [exact F3|]. intro Hn. apply F4. apply I3. exact Hn.
        + intro Hn. apply F2. apply I3. exact Hn.
      - intros h0 L1' b L2' pg' d1 k0 c d2 x px' H0 Hg' Ed Hn Hx Hgx'. destruct (lvl_split (S h0) L1' b L2' H0) as (Hnd & L1 & L2 & H1 & I1 & I2 & I3). destruct (same_back b pg' Hg') as (pg & Hg & _ & _ & _ & E4 & _).
        destruct (same_back x px' Hgx') as (px & Hgx & _ & Ex & _). rewrite Ex. apply under_incl in Hx. destruct (Nat.eq_dec b p) as [->|Hnp].
        + rewrite get_p in Hg'. injection Hg' as <-. cbn [pp' p_downs] in Ed. rewrite Hpp in Hg. injection Hg as <-.
          destruct (insert_split D1 D2 (k, d) d1 (k0, c) d2 Ed) as (e1 & e2 & F1 & _ & _ & F3). apply (S_key _ _ _ _ _ _ _ HS h0 L1 p L2 pp e1 k0 c e2 x px H1 Hpp); auto; [congruence|]. destruct Hn; [left; auto|right; auto].
        + rewrite (E4 Hnp) in Ed. apply (S_key _ _ _ _ _ _ _ HS h0 L1 b L2 pg d1 k0 c d2 x px H1 Hg Ed); auto. destruct Hn; [left; auto|right; auto].
      - intros h0 L1' b L2' pg' x px' H0 Hn Hg' Hx Hgx'. destruct (lvl_split (S h0) L1' b L2' H0) as (Hnd & L1 & L2 & H1 & I1 & I2 & I3). destruct (same_back b pg' Hg') as (pg & Hg & _ & Eb & _).
        destruct (same_back x px' Hgx') as (px & Hgx & _ & Ex & _). rewrite Ex, Eb. apply under_incl in Hx. exact (S_bound _ _ _ _ _ _ _ HS h0 L1 b L2 pg x px H1 (I3 Hn) Hg Hx Hgx).
      - intros h0 b L H0. assert (HL2 : S h0 = h -> nth_error lvl (S h0) = Some (A ++ l :: d :: r :: B)) by (intros ->; exact HL). destruct (Nat.eq_dec (S h0) h) as [E|Hn].
        + specialize (HL2 E). rewrite E, lvl_h in H0. injection H0 as H0. assert (Hb : exists L0, A ++ l :: d :: r :: B = b :: L0) by (destruct A; cbn in *; injection H0 as <- _; eauto). destruct Hb as [L0 Hb].
          rewrite kids_other; [apply (S_first _ _ _ _ _ _ _ HS h0 b L0); rewrite HL2, Hb; reflexivity|]. intros ->. apply (not_p (S h0) _ ltac:(lia) HL2). rewrite Hb. left. reflexivity.
        + rewrite (lvl_other (S h0) Hn) in H0. destruct (Nat.eq_dec b p) as [->|Hnp]; [|rewrite kids_other by exact Hnp; exact (S_first _ _ _ _ _ _ _ HS h0 b L H0)].
          pose proof (s_inj cmp ifit ok fit st root lvl HS _ _ _ _ p H0 HP (or_introl eq_refl) in_p) as Eh. rewrite Eh, HP in H0. injection H0 as H0. pose proof (proj1 (nodup_split P1 P2 [] L p p_nodup H0)) as H.
          rewrite H in RS1. cbn [flat_map app] in RS1. rewrite kids_p, map_app, RS1. destruct A; discriminate.
      - intros h0 b L H0. assert (HL2 : S h0 = h -> nth_error lvl (S h0) = Some (A ++ l :: d :: r :: B)) by (intros ->; exact HL). destruct (Nat.eq_dec (S h0) h) as [E|Hn].
        + specialize (HL2 E). rewrite E, lvl_h in H0. injection H0 as H0. assert (Hb : exists L0, A ++ l :: d :: r :: B = L0 ++ [b]).
          { replace (A ++ l :: r :: B) with ((A ++ [l]) ++ r :: B) in H0 by (rewrite <- app_assoc; reflexivity). destruct B as [|y B0 _] using rev_ind.
            - apply app_inj_tail in H0 as [_ <-]. exists (A ++ [l; d]). rewrite <- app_assoc. reflexivity.
            - rewrite app_comm_cons, app_assoc in H0. apply app_inj_tail in H0 as [_ <-]. exists (A ++ l :: d :: r :: B0). rewrite <- app_assoc. reflexivity. }
          destruct Hb as [L0 Hb]. rewrite kids_other; [apply (S_last _ _ _ _ _ _ _ HS h0 b L0); rewrite HL2, Hb; reflexivity|]. intros ->. apply (not_p (S h0) _ ltac:(lia) HL2). rewrite Hb. apply in_app_iff. right. left. reflexivity.
        + rewrite (lvl_other (S h0) Hn) in H0. destruct (Nat.eq_dec b p) as [->|Hnp]; [|rewrite kids_other by exact Hnp; exact (S_last _ _ _ _ _ _ _ HS h0 b L H0)].
          pose proof (s_inj cmp ifit ok fit st root lvl HS _ _ _ _ p H0 HP ltac:(apply in_app_iff; right; left; reflexivity) in_p) as Eh. rewrite Eh, HP in H0. injection H0 as H0.
          pose proof (proj2 (nodup_split P1 P2 L [] p p_nodup H0)) as H. rewrite H in RS2. cbn [flat_map] in RS2. rewrite app_nil_r in RS2. rewrite kids_p, map_app, RS2. destruct (map snd D1); discriminate.
    Qed.
    Lemma del_rows : rows_of_leaves st' lvl' = rows_of_leaves st lvl.
    Proof.
      assert (Hi : forall b, items_at st' b = items_at st b).
      { intro b. unfold items_at. destruct (get st b) as [pg|] eqn:E; [|rewrite (get_none b E); reflexivity]. destruct (same b pg E) as (pg' & -> & H & _). exact H. }
      assert (K : forall L, flat_map (items_at st') L = flat_map (items_at st) L) by (intro L; apply flat_map_ext; exact Hi).
      assert (Hd : items_at st d = []) by (unfold items_at; rewrite Hpd; exact (proj1 noItems_pd)).
      assert (E : rows_of_leaves st' lvl' = rows_of_leaves st lvl'). { unfold rows_of_leaves. destruct lvl'; [reflexivity|]. apply K. }
      rewrite E. unfold lvl', rows_of_leaves. generalize HL. generalize h as h0. intros h0 HL0. destruct lvl as [|L0 ll]; [reflexivity|]. destruct h0 as [|h0]; cbn [upd]; [|reflexivity].
      cbn in HL0. injection HL0 as ->. rewrite !flat_map_app. cbn [flat_map]. rewrite Hd. reflexivity.
    Qed.
    Lemma del_childless : (forall h0 L x, nth_error lvl (S h0) = Some L -> In x L -> kids st x = [] -> x = d) ->
      forall h0 L x, nth_error lvl' (S h0) = Some L -> In x L -> kids st' x = [] -> x = p.
    Proof.
      intros Hpre h0 L x H0 Hx Hk. apply in_split in Hx as (L1' & L2' & ->). destruct (lvl_split (S h0) L1' x L2' H0) as (Hnd & L1 & L2 & H1 & _).
      destruct (Nat.eq_dec x p) as [E|Hn]; [exact E|]. rewrite kids_other in Hk by exact Hn. exfalso. apply Hnd. apply (Hpre h0 _ x H1); [apply in_app_iff; right; left; reflexivity|exact Hk].
    Qed.
    Lemma del_frame x pg : x <> p -> get st x = Some pg -> exists pg', get st' x = Some pg' /\ p_downs pg' = p_downs pg.
    Proof. intros Hn Hg. destruct (same x pg Hg) as (pg' & G & _ & _ & _ & E & _). exists pg'. auto. Qed.
    Lemma del_parent : exists pg, get st' p = Some pg /\ p_downs pg = D1 ++ D2.
    Proof. exists pp'. split; [exact get_p|reflexivity]. Qed.
  End Step.
End Del.
