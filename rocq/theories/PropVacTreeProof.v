(** Proofs for PropVacTree.v. *)
From Verif Require Import Base Ord OrdProof Codec CodecSpec CodecProof LeafPage LeafSpec LeafCodec LeafCodecProof PropCodecProof
  BTree BTreeInv BTreeFind BTreeIns PostingTree PostingTreeProof PostingTreeSpec PropTreeProof VacuumProof
  VacuumTree VacTreeInv VacTreeClean VacTreeScan VacTreeAll VacTreeFrom VacTreeTo VacTreeSpec.
From Coq Require Import NArith ZArith Lia List Bool Arith.
Import ListNotations.

Section Hist.
  Variables (alt : bool) (a : attr) (cmpA : datum -> datum -> Z).
  Hypothesis Hcfg : config_ok alt a.
  Hypothesis HA : total_cmp cmpA.
  Hypothesis Hsafe : safe_align a.
  Notation cmp := (compareRumItem alt cmpA).
  Let OK : total_cmp cmp := cri_total alt cmpA HA.
  Notation VInv := (Inv cmp pt_ifit false (pt_ok alt a) (fits_page alt a) false).
  Notation VStr := (Str cmp pt_ifit (pt_ok alt a) (fits_page alt a)).

  Lemma ifit_del (d1 : list (row * nat)) kc d2 : pt_ifit (d1 ++ kc :: d2) -> pt_ifit (d1 ++ d2).
  Proof. unfold pt_ifit. rewrite !app_length. cbn [length]. intro H. lia. Qed.
  Lemma fit_filter dead l : ssorted cmp l -> Forall (pt_ok alt a) l -> fits_page alt a l -> fits_page alt a (filter (alive dead) l).
  Proof.
    intros Hs Ho (bs & Hw & Hn). assert (Hok : Forall (item_ok alt a) l) by (eapply Forall_impl; [|exact Ho]; intros x [[Hx _] _]; exact Hx).
    assert (Hokf : Forall (item_ok alt a) (filter (alive dead) l)) by (apply Forall_forall; intros y Hy; apply filter_In in Hy as [Hy _]; rewrite Forall_forall in Hok; auto).
    destruct (vacuum_list_bytes alt a dead l bs [] Hok Hw) as (cleaned & _ & H2). fold (alive dead) in H2. destruct cleaned as [bytes|].
    - destruct H2 as [H2 _]. exists bytes. split; [exact H2|].
      pose proof (filter_size alt a dead Hcfg l ip_min 0%N Hok (ssorted_chain alt a dead Hcfg cmpA l Hs)) as Hsz. change (filter (VacuumProof.live dead) l) with (filter (alive dead) l) in *.
      rewrite (posting_size_eq alt a _ _ _ _ Hok Hw), (posting_size_eq alt a _ _ _ _ Hokf H2) in Hsz. lia.
    - exists bs. change (filter (VacuumProof.live dead) l = l) in H2. change (filter (alive dead) l = l) in H2. rewrite H2. auto.
  Qed.

  Lemma vinv_tree_is st G : VInv st 0 G -> tree_is alt a cmpA st (contents st G).
  Proof.
    intro HI. split; [|split].
    - unfold ptScan. eapply (BTreeFind.scan_spec cmp OK); eauto.
    - eapply (contents_sorted cmp OK); eauto.
    - intros x Hx. unfold ptLookup.
      apply (lookup_spec cmp OK pt_ifit false (pt_ok alt a) (fits_page alt a) (@p_bound _) (pt_locate alt cmpA) (findOnPage alt cmpA)
        (p_bound_ok cmp OK _ _ _ _) (dataLocate_ok cmp OK false) (pt_find_ok alt a cmpA HA) false st 0 G HI x Hx).
  Qed.
  Lemma vinsert_ok build x st G : VInv st 0 G -> complete st 0 G -> storable alt a x ->
    exists tr, ptInsert alt a cmpA build st [x] = Some (tr, false) /\
      exists G', VInv (last tr st) 0 G' /\ complete (last tr st) 0 G' /\ rows_ins cmp (contents st G) [x] (contents (last tr st) G').
  Proof.
    intros HI HC Hx. unfold ptInsert, insertAll. set (multi := (attr_align a =? 1)%N).
    assert (Hm : multi = true -> attr_align a = 1%N) by (unfold multi; intro H; apply N.eqb_eq; exact H).
    edestruct (insertItems_spec cmp OK pt_ifit false (pt_ok alt a) (fits_page alt a) (fun _ => True) (@p_bound _) item_min pt_ienough (pt_locate alt cmpA)
      (findOnPage alt cmpA) (pt_leafEnough alt a) (pt_leafPlace alt a cmpA) (splitPage alt a) (pt_isep build) pt_rkey multi) with (tight := false) (root := 0) (batch := [x]) (st := st) (G := G) (fuel := 2)
      as (tr & lost & done & todo & E & Eb & Ht & _ & G' & HI' & HR & HC'); [..|exact HI| | | | |].
    - apply pt_kok_ok.
    - exact pt_ienough_ok.
    - apply pt_isep_ok.
    - exact pt_iroot_ok.
    - exact (p_bound_ok cmp OK _ _ _ _).
    - apply dataLocate_ok. exact OK.
    - exact (pt_find_ok alt a cmpA HA).
    - apply pt_place_ok; auto.
    - apply pt_split_ok; auto.
    - repeat constructor.
    - constructor; [exact Hx|constructor].
    - right. cbn. lia.
    - cbn. lia.
    - destruct (HC' HC) as [El Hc]. subst lost. exists tr. split; [exact E|]. exists G'. split; [exact HI'|]. split; [exact Hc|]. rewrite (Ht eq_refl), app_nil_r in Eb. subst done. exact HR.
  Qed.

  Lemma no_empty_full s lvl : VStr s 0 lvl -> no_empty_internal s -> full s lvl.
  Proof.
    intros HS Hn h L b HL Hb E. destruct (S_page _ _ _ _ _ _ _ HS (S h) L b HL Hb) as (pg & Hg & Hlf & Hd & _). unfold kids in E. rewrite Hg in E. apply map_eq_nil in E. exact (Hn b pg Hg Hlf Hd E).
  Qed.
  Lemma cmp_ip x y : cmp x y = 0%Z -> ip x = ip y.
  Proof. 
    unfold compareRumItem. destruct alt; [|apply cip_eq].
    destruct (add x) as [u|], (add y) as [v|]; try (intro H; discriminate H); [|apply cip_eq].
    destruct (cmpA u v) eqn:E; [apply cip_eq| |]; intro H; discriminate H.
  Qed.

  Theorem vreaches_inv st must may : vreaches alt a cmpA st must may -> exists G, VInv st 0 G /\ complete st 0 G /\
    (forall x, In x must -> exists y, In y (contents st G) /\ cmp y x = 0%Z) /\ (forall x, In x (contents st G) -> In x may).
  Proof.
    induction 1 as [rows hist st Hs Ho Hf Hb Hr|st must may build x tr Hr IH Hx E|st must may dead tr Hr IH E|st must may dead tr s Hr IH E Hin Hne].
    - destruct (run_step alt a cmpA Hcfg HA Hsafe hist _ rows (create_complete alt a cmpA rows Hs Ho Hf) Hb) as (st' & Hr' & G & HI & HC & H). rewrite Hr in Hr'. injection Hr' as <-.
      exists G. split; [exact (inv_weaken _ _ _ _ _ _ _ _ HI)|]. split; [exact HC|]. split.
      + intros x Hx. destruct (first_of_exists alt cmpA HA _ x Hx) as (y & Hy & Ey). exists y. split; [apply H; exact Hy|exact Ey].
      + intros x Hx. apply H in Hx. exact (first_of_in _ _ _ _ Hx).
    - destruct IH as (G & HI & HC & H1 & H2). destruct (vinsert_ok build x st G HI HC Hx) as (tr' & E' & G' & HI' & HC' & (R1 & R2 & R3)). rewrite E in E'. injection E' as <-. exists G'. split; [exact HI'|]. split; [exact HC'|]. split.
      + intros z Hz. apply in_app_iff in Hz as [Hz|Hz].
        * destruct (H1 z Hz) as (y & Hy & Ey). exists y. split; [apply R1; exact Hy|exact Ey].
        * destruct (R3 z Hz) as (y & Hy & Ey). exists y. auto.
      + intros z Hz. apply in_app_iff. destruct (R2 z Hz); auto.
    - unfold row in *. destruct IH as (G & HI & HC & H1 & H2). pose proof (inv_str cmp OK _ _ _ st 0 G HI HC) as HS. pose proof (inv_full cmp _ _ _ st 0 G HI) as HF.
      destruct (vacuumTree_spec cmp pt_ifit (pt_ok alt a) (fits_page alt a) (alive dead) ifit_del (fit_filter dead) st 0 (lv G) HS HF) as (tr' & lvl' & E' & HS' & HF' & ER & _). assert (Etr : Some tr = Some tr') by (rewrite <- E; exact E'). injection Etr as <-.
      destruct (str_inv cmp OK _ _ _ _ 0 lvl' HS' HF') as [HI' HC']. exists (gG (last tr st) lvl'). split; [exact HI'|]. split; [exact HC'|]. assert (EC : contents (last tr st) (gG (last tr st) lvl') = filter (alive dead) (contents st G)) by exact ER. rewrite EC. split.
      + intros x Hx. apply filter_In in Hx as [Hx Hl]. destruct (H1 x Hx) as (y & Hy & Ey). exists y. split; [|exact Ey]. apply filter_In. split; [exact Hy|]. unfold alive in *. rewrite (cmp_ip _ _ Ey). exact Hl.
      + intros x Hx. apply filter_In in Hx as [Hx Hl]. apply filter_In. auto.
    - unfold row in *. destruct IH as (G & HI & HC & H1 & H2). pose proof (inv_str cmp OK _ _ _ st 0 G HI HC) as HS. pose proof (inv_full cmp _ _ _ st 0 G HI) as HF.
      destruct (vacuumTree_spec cmp pt_ifit (pt_ok alt a) (fits_page alt a) (alive dead) ifit_del (fit_filter dead) st 0 (lv G) HS HF) as (tr' & lvl' & E' & _ & _ & _ & FM & _). assert (Etr : Some tr = Some tr') by (rewrite <- E; exact E'). injection Etr as <-.
      rewrite Forall_forall in FM. destruct (FM s Hin) as (lvls & HSs & Q1 & Q2). pose proof (no_empty_full s lvls HSs Hne) as HFs.
      destruct (str_inv cmp OK _ _ _ _ 0 lvls HSs HFs) as [HI' HC']. exists (gG s lvls). split; [exact HI'|]. split; [exact HC'|]. rewrite str_contents. change (rows_of_leaves st (lv G)) with (contents st G) in *. split.
      + intros x Hx. apply filter_In in Hx as [Hx Hl]. destruct (H1 x Hx) as (y & Hy & Ey). exists y. split; [|exact Ey].
        assert (Hyl : In y (filter (alive dead) (contents st G))) by (apply filter_In; split; [exact Hy|]; unfold alive in *; rewrite (cmp_ip _ _ Ey); exact Hl).
        pose proof (eq_ind_r (fun l => In y l) Hyl Q2) as Hyl2. apply filter_In in Hyl2. apply Hyl2.
      + intros x Hx. apply H2. apply Q1. exact Hx.
  Qed.

  Theorem vreaches_tree st must may : vreaches alt a cmpA st must may -> exists rows, tree_is alt a cmpA st rows /\
    (forall x, In x must -> exists y, In y rows /\ cmp y x = 0%Z) /\ (forall x, In x rows -> In x may).
  Proof. intro H. destruct (vreaches_inv st must may H) as (G & HI & _ & H1 & H2). exists (contents st G). split; [exact (vinv_tree_is st G HI)|]. auto. Qed.
  Theorem vreaches_insert st must may : vreaches alt a cmpA st must may -> forall build x, storable alt a x -> exists tr, ptInsert alt a cmpA build st [x] = Some (tr, false).
  Proof. intros H build x Hx. destruct (vreaches_inv st must may H) as (G & HI & HC & _). destruct (vinsert_ok build x st G HI HC Hx) as (tr & E & _). eauto. Qed.

  Lemma vreaches_full st must may : vreaches alt a cmpA st must may -> forall rows, ptScan st = Some rows -> exists lvl, VStr st 0 lvl /\ full st lvl /\ rows_of_leaves st lvl = rows.
  Proof.
    intros H rows Hs. destruct (vreaches_inv st must may H) as (G & HI & HC & _). exists (lv G). split; [exact (inv_str cmp OK _ _ _ st 0 G HI HC)|]. split; [exact (inv_full cmp _ _ _ st 0 G HI)|].
    destruct (vinv_tree_is st G HI) as [Hsc _]. rewrite Hs in Hsc. injection Hsc as ->. reflexivity.
  Qed.
  Lemma str_sorted s lvl rows : VStr s 0 lvl -> rows_of_leaves s lvl = rows -> ptScan s = Some rows.
  Proof. intros HS <-. exact (s_scan cmp _ _ _ s 0 lvl HS). Qed.
  Lemma rows_sorted s lvl : VStr s 0 lvl -> ssorted cmp (rows_of_leaves s lvl).
  Proof.
    intro HS. pose proof (s_len cmp _ _ _ s 0 lvl HS) as Hne. destruct lvl as [|L0 ll]; [congruence|]. unfold rows_of_leaves. 
    assert (K : forall L1 L2, L0 = L1 ++ L2 -> ssorted cmp (flat_map (items_at s) L2) /\ (forall x, In x (flat_map (items_at s) L2) -> forall a0 pa, In a0 L1 -> get s a0 = Some pa -> (cmp (p_bound pa) x < 0)%Z)).
    { intros L1 L2. revert L1. induction L2 as [|b L2 IH]; intros L1 E; [split; [constructor|intros x []]|].
      destruct (IH (L1 ++ [b])) as [I1 I2]; [rewrite <- app_assoc; exact E|]. cbn [flat_map].
      assert (HL : nth_error (L0 :: ll) 0 = Some (L1 ++ b :: L2)) by (cbn; rewrite E; reflexivity).
      destruct (S_page _ _ _ _ _ _ _ HS 0 _ b HL ltac:(apply in_app_iff; right; left; reflexivity)) as (pg & Hg & _ & _ & Q & _). destruct (Q eq_refl) as (_ & Hso & _).
      destruct (S_leaf _ _ _ _ _ _ _ HS L1 b L2 pg HL Hg) as [F1 F2]. assert (Ei : items_at s b = p_items pg) by (unfold items_at; rewrite Hg; reflexivity). rewrite Ei. split.
      - apply ssorted_app. split; [exact Hso|]. split; [exact I1|]. intros x y Hx Hy. pose proof (I2 y Hy b pg ltac:(apply in_app_iff; right; left; reflexivity) Hg) as H1. 
        assert (HL2 : L2 <> []) by (intros ->; destruct Hy). pose proof (F2 HL2 x Hx). exact (cmp_le_lt_trans cmp OK x (p_bound pg) y H H1).
      - intros x Hx a0 pa Ha Hga. apply in_app_iff in Hx as [Hx|Hx]; [exact (proj1 (F1 a0 pa Ha Hga) x Hx)|]. apply (I2 x Hx a0 pa); [apply in_app_iff; auto|exact Hga]. }
    apply (K [] L0 eq_refl).
  Qed.

  Theorem vacuum_rows st must may : vreaches alt a cmpA st must may -> forall rows, ptScan st = Some rows -> forall dead,
    exists tr, ptVacuum dead st = Some tr /\ tree_is alt a cmpA (last tr st) (filter (alive dead) rows) /\
      forall s, In s tr -> exists rows', ptScan s = Some rows' /\ ssorted cmp rows' /\ incl rows' rows /\ filter (alive dead) rows' = filter (alive dead) rows /\
        (no_empty_internal s -> tree_is alt a cmpA s rows').
  Proof.
    intros H rows Hs dead. destruct (vreaches_full st must may H rows Hs) as (lvl & HS & HF & ER).
    destruct (vacuumTree_spec cmp pt_ifit (pt_ok alt a) (fits_page alt a) (alive dead) ifit_del (fit_filter dead) st 0 lvl HS HF) as (tr & lvl' & E & HS' & HF' & ER' & FM & _).
    exists tr. split; [exact E|]. split.
    - destruct (str_inv cmp OK _ _ _ _ 0 lvl' HS' HF') as [HI' _]. pose proof (vinv_tree_is _ _ HI') as Ht. rewrite str_contents in Ht. unfold row in *. rewrite ER', ER in Ht. exact Ht.
    - intros s Hin. rewrite Forall_forall in FM. destruct (FM s Hin) as (lvls & HSs & Q1 & Q2). exists (rows_of_leaves s lvls). split; [apply (str_sorted s lvls _ HSs eq_refl)|]. split; [exact (rows_sorted s lvls HSs)|].
      unfold row in *. rewrite ER in Q1, Q2. split; [exact Q1|]. split; [exact Q2|]. intro Hne. destruct (str_inv cmp OK _ _ _ _ 0 lvls HSs (no_empty_full s lvls HSs Hne)) as [HI' _]. pose proof (vinv_tree_is _ _ HI') as Ht. rewrite str_contents in Ht. exact Ht.
  Qed.

  (** one vacuum, said of the invariant *)
  Lemma vacuum_inv dead st G : VInv st 0 G -> complete st 0 G ->
    exists tr, ptVacuum dead st = Some tr /\
      (exists G', VInv (last tr st) 0 G' /\ complete (last tr st) 0 G' /\ contents (last tr st) G' = filter (alive dead) (contents st G)) /\
      Forall (fun s => exists rows', ptScan s = Some rows' /\ ssorted cmp rows' /\ incl rows' (contents st G) /\ filter (alive dead) rows' = filter (alive dead) (contents st G)) tr.
  Proof.
    intros HI HC. unfold row in *. pose proof (inv_str cmp OK _ _ _ st 0 G HI HC) as HS. pose proof (inv_full cmp _ _ _ st 0 G HI) as HF.
    destruct (vacuumTree_spec cmp pt_ifit (pt_ok alt a) (fits_page alt a) (alive dead) ifit_del (fit_filter dead) st 0 (lv G) HS HF) as (tr & lvl' & E & HS' & HF' & ER & FM & _).
    exists tr. split; [exact E|]. split.
    - destruct (str_inv cmp OK _ _ _ _ 0 lvl' HS' HF') as [HI' HC']. exists (gG (last tr st) lvl'). split; [exact HI'|]. split; [exact HC'|exact ER].
    - eapply Forall_impl; [|exact FM]. intros s (lvls & HSs & Q1 & Q2). exists (rows_of_leaves s lvls). split; [exact (str_sorted s lvls _ HSs eq_refl)|]. split; [exact (rows_sorted s lvls HSs)|]. split; [exact Q1|exact Q2].
  Qed.

  Theorem vacuum_after_cut st must may : vreaches alt a cmpA st must may -> forall dead tr s, ptVacuum dead st = Some tr -> In s tr -> no_empty_internal s ->
    exists rows, tree_is alt a cmpA s rows /\
      (forall x, In x must -> dead (ip x) = false -> exists y, In y rows /\ cmp y x = 0%Z) /\ (forall x, In x rows -> In x may) /\
      forall dead2, exists tr2, ptVacuum dead2 s = Some tr2 /\ tree_is alt a cmpA (last tr2 s) (filter (alive dead2) rows).
  Proof.
    intros H dead tr s E Hin Hne. pose proof (vr_vacuum_cut _ _ _ st must may dead tr s H E Hin Hne) as H'. destruct (vreaches_tree _ _ _ H') as (rows & Ht & H1 & H2). exists rows. split; [exact Ht|]. split; [|split; [exact H2|]].
    - intros x Hx Hd. apply H1. apply filter_In. split; [exact Hx|]. unfold alive. rewrite Hd. reflexivity.
    - intro dead2. destruct (vacuum_rows _ _ _ H' rows (proj1 Ht) dead2) as (tr2 & E2 & Ht2 & _). eauto.
  Qed.

  Lemma on_chain_iff st lvl b : VStr st 0 lvl -> (on_chain st b <-> In b (leaves lvl)).
  Proof.
    intro HS. rewrite <- (chain_iff cmp pt_ifit (pt_ok alt a) (fits_page alt a) st 0 lvl HS b). split; induction 1; [constructor 1; assumption|econstructor 2; eauto|constructor 1; assumption|econstructor 2; eauto].
  Qed.
  Theorem vacuum_pages st must may : vreaches alt a cmpA st must may -> forall dead tr, ptVacuum dead st = Some tr ->
    let st' := last tr st in
    (forall b, on_chain st' b -> on_chain st b) /\
    (forall b pg, on_chain st b -> nth_error st b = Some pg -> p_left pg = None \/ p_right pg = None ->
      on_chain st' b /\ exists pg', nth_error st' b = Some pg' /\ (p_left pg = None -> p_left pg' = None) /\ (p_right pg = None -> p_right pg' = None)) /\
    (forall b pg pg', on_chain st' b -> nth_error st b = Some pg -> nth_error st' b = Some pg' -> p_items pg' = [] ->
      p_items pg = [] \/ p_left pg' = None \/ p_right pg' = None).
  Proof.
    intros H dead tr E. destruct (vreaches_inv st must may H) as (G & HI & HC & _). pose proof (inv_str cmp OK _ _ _ st 0 G HI HC) as HS. pose proof (inv_full cmp _ _ _ st 0 G HI) as HF.
    destruct (vacuumTree_spec cmp pt_ifit (pt_ok alt a) (fits_page alt a) (alive dead) ifit_del (fit_filter dead) st 0 (lv G) HS HF) as (tr' & lvl' & E' & HS' & HF' & _ & _ & X1 & X2 & X3 & X4).
    assert (Etr : Some tr = Some tr') by (rewrite <- E; exact E'). injection Etr as <-. cbv zeta. clear E E'. revert HS' HF' X1 X2 X3 X4. unfold row in *. generalize (last tr st) as st'. intros st' HS' HF' X1 X2 X3 X4.
    assert (Hend : forall b pg, on_chain st b -> nth_error st b = Some pg -> p_left pg = None \/ p_right pg = None -> In b (leaves lvl')).
    { intros b pg Hb Hg Hor. apply (on_chain_iff st _ b HS) in Hb. destruct (chain_ends cmp _ _ _ st 0 (lv G) b pg HS Hb Hg) as [L R].
      assert (Hne : leaves lvl' <> []). { destruct (leaves (lv G)) as [|z zs]; [destruct Hb|]. destruct (leaves lvl'); [discriminate|discriminate]. }
      destruct Hor as [Hl|Hr].
      - apply L in Hl. rewrite <- X1 in Hl. destruct (leaves lvl'); [discriminate|]. injection Hl as ->. left. reflexivity.
      - apply R in Hr. rewrite <- X2 in Hr. rewrite <- Hr. destruct (exists_last Hne) as (l & z & ->). rewrite last_last. apply in_app_iff. right. left. reflexivity. }
    split; [|split].
    - intros b Hb. apply (on_chain_iff st _ b HS). apply X3. apply (on_chain_iff st' _ b HS'). exact Hb.
    - intros b pg Hb Hg Hor. pose proof (Hend b pg Hb Hg Hor) as Hin. split; [apply (on_chain_iff st' _ b HS'); exact Hin|].
      assert (HL : nth_error lvl' 0 = Some (leaves lvl')) by (destruct lvl'; [destruct Hin|reflexivity]). destruct (s_get cmp _ _ _ st' 0 lvl' HS' 0 _ b HL Hin) as [pg' Hg']. exists pg'. split; [exact Hg'|].
      apply (on_chain_iff st _ b HS) in Hb. destruct (chain_ends cmp _ _ _ st 0 (lv G) b pg HS Hb Hg) as [L R]. destruct (chain_ends cmp _ _ _ st' 0 lvl' b pg' HS' Hin Hg') as [L' R']. rewrite L, R, L', R', X1, X2. auto.
    - intros b pg pg' Hb Hg Hg' Hi. apply (on_chain_iff st' _ b HS') in Hb. destruct (chain_ends cmp _ _ _ st' 0 lvl' b pg' HS' Hb Hg') as [L' R']. rewrite L', R'.
      specialize (X4 b Hb). unfold items_at, get in X4. rewrite Hg, Hg' in X4. exact (X4 Hi).
  Qed.
End Hist.
