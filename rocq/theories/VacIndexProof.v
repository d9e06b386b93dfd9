(** Vacuum of the whole index keeps its invariant.  Proof file. *)
From Verif Require Import Base Ord OrdProof Codec CodecSpec CodecProof LeafPage LeafSpec LeafCodec LeafCodecProof PropCodecProof Entries EntriesProof BTree BTreeInv BTreeFind
  PostingTree PostingTreeProof PostingTreeSpec PropTreeProof EntryTree EntryTreeProof IndexSpec IndexProof
  VacuumProof VacuumTree VacTreeFrom VacTreeSpec PropVacTreeProof VacIndex.
From Coq Require Import NArith ZArith Bool Arith List Lia.
Import ListNotations.

Lemma last_app {A} (l l' : list A) d : last (l ++ l') d = last l' (last l d).
Proof. induction l' as [|x l' IH] using rev_ind; [rewrite app_nil_r; reflexivity|]. rewrite app_assoc, !last_last. reflexivity. Qed.

Section V.
  Context {K : Type}.
  Variable compareFn : N -> K -> K -> Z.
  Variable altOf : N -> bool.
  Variable attrOf : N -> attr.
  Variable cmpA : datum -> datum -> Z.
  Variable rawSize : ekey K -> N.
  Hypothesis Hcols : columns_ok compareFn altOf attrOf cmpA.
  Variable dead : iptr -> bool.
  Notation kcmp := (rumCompareAttEntries compareFn).
  Notation etup := (etup K).
  Notation istate := (@istate K).
  Notation cmp := (ecmp compareFn).
  Notation tsz := (tupsize altOf attrOf rawSize).
  Let HK := proj1 Hcols.
  Let HA := proj1 (proj2 Hcols).
  Let Hatt := proj1 (proj2 (proj2 Hcols)).
  Let Hsafe := proj2 (proj2 (proj2 Hcols)).
  Let OK : total_cmp cmp := ecmp_total compareFn HK.
  Notation et_ok := (EntryTreeProof.et_ok altOf attrOf rawSize).
  Notation et_fit := (EntryTreeProof.et_fit altOf attrOf rawSize).
  Notation EInv := (Inv cmp (et_ifit rawSize) true et_ok et_fit true).
  Notation rcmp := (fun k : ekey K => compareRumItem (altOf (k_att k)) cmpA).
  Notation IInv := (IInv compareFn altOf attrOf cmpA rawSize).
  Notation data_ok tight := (IndexProof.data_ok altOf attrOf cmpA tight).
  Notation cont ix G := (contents (i_entry ix) G).
  Notation live := (alive dead).

  Definition vt (t : etup) : etup := match t_data t with PList rows => mkTup (t_key t) (PList (filter live rows)) | PTree _ => t end.
  Lemma vt_key t : t_key (vt t) = t_key t.
  Proof. unfold vt. destruct (t_data t); reflexivity. Qed.
  Lemma vt_tree t n : t_data (vt t) = PTree n -> vt t = t.
  Proof. unfold vt. destruct (t_data t); [discriminate|reflexivity]. Qed.
  Lemma vt_tree' t n : t_data t = PTree n -> vt t = t.
  Proof. unfold vt. intros ->. reflexivity. Qed.
  Lemma vt_cmp t x : cmp (vt t) x = cmp t x /\ cmp x (vt t) = cmp x t.
  Proof. unfold ecmp. rewrite vt_key. auto. Qed.
  Lemma filter2 (l : list row) : filter live (filter live l) = filter live l.
  Proof. induction l as [|x l IH]; [reflexivity|]. cbn [filter]. destruct (live x) eqn:E; [cbn [filter]; rewrite E, IH; reflexivity|exact IH]. Qed.

  Lemma vt_size t : (forall rows, t_data t = PList rows -> ssorted (rcmp (t_key t)) rows /\ Forall (storable (altOf (k_att (t_key t))) (attrOf (k_att (t_key t)))) rows) ->
    (tsz (vt t) <= tsz t)%N.
  Proof.
    intro H. unfold vt, tupsize. destruct (t_data t) as [rows|n] eqn:E; [|rewrite E; lia]. cbn [t_data t_key]. destruct (H rows eq_refl) as [Hs Ho]. apply storable_item in Ho.
    unfold altK, attrK. pose proof (filter_size (altOf (k_att (t_key t))) (attrOf (k_att (t_key t))) dead (Hatt _) rows ip_min (ksize rawSize (t_key t)) Ho (ssorted_chain _ (attrOf (k_att (t_key t))) dead (Hatt _) cmpA rows Hs)) as Hsz.
    change (filter (VacuumProof.live dead) rows) with (filter live rows) in Hsz. unfold MAXALIGN. apply N.mul_le_mono_r. apply N.div_le_mono; [discriminate|]. lia.
  Qed.

  Notation list_ok t := (forall rows, t_data t = PList rows -> ssorted (rcmp (t_key t)) rows /\ Forall (storable (altOf (k_att (t_key t))) (attrOf (k_att (t_key t)))) rows).
  Lemma used_app l1 l2 : usedSpace tsz (l1 ++ l2) = (usedSpace tsz l1 + usedSpace tsz l2)%N.
  Proof. induction l1 as [|t l1 IH]; [reflexivity|]. cbn [app usedSpace fold_right]. fold (usedSpace tsz (l1 ++ l2)). fold (usedSpace tsz l1). rewrite IH. lia. Qed.
  Lemma vts_size l : (forall t, In t l -> list_ok t) -> (usedSpace tsz (map vt l) <= usedSpace tsz l)%N.
  Proof.
    induction l as [|t l IH]; intro H; [cbn; lia|]. cbn [map usedSpace fold_right]. fold (usedSpace tsz (map vt l)). fold (usedSpace tsz l).
    pose proof (vt_size t (H t (or_introl eq_refl))). specialize (IH (fun t' Ht => H t' (or_intror Ht))). lia.
  Qed.
  Lemma vacuumTuple_spec t : list_ok t -> et_ok t -> exists r, vacuumTuple altOf attrOf rawSize dead t = Some (vt t, r) /\ (r = false -> vt t = t).
  Proof.
    intros Hl Ho. unfold vacuumTuple. pose proof (vt_size t Hl) as Hs. unfold vt in *. destruct (t_data t) as [rows|n] eqn:E; [|exists false; auto].
    destruct rows as [|x rows]; [exists false; cbn [filter]; split; [rewrite <- E; destruct t; reflexivity|intros _; rewrite <- E; destruct t; reflexivity]|].
    remember (x :: rows) as l eqn:El. clear El. destruct (Nat.eqb_spec (length l) (length (filter live l))) as [Ef|Ef].
    - exists false. assert (Efl : filter live l = l) by (apply (filter_length_same dead l); symmetry; exact Ef). rewrite Efl, <- E. destruct t. auto.
    - unfold RumFormTuple. destruct (N.ltb_spec RumMaxItemSize (tsz (mkTup (t_key t) (PList (filter live l))))) as [L|L]; [unfold EntryTreeProof.et_ok in Ho; lia|].
      cbn [option_map]. exists true. split; [reflexivity|discriminate].
  Qed.
  Lemma vacuumTuples_spec : forall todo done ch, (forall t, In t todo -> list_ok t /\ et_ok t) -> (usedSpace tsz (done ++ todo) <= entryPageSpace)%N ->
    exists r, vacuumTuples altOf attrOf rawSize dead done todo ch = CleanPage (done ++ map vt todo) (ch || r) /\ (r = false -> map vt todo = todo).
  Proof.
    induction todo as [|t todo IH]; intros done ch H Hu; cbn [vacuumTuples map].
    - exists false. rewrite app_nil_r, orb_false_r. auto.
    - destruct (H t (or_introl eq_refl)) as [Hl Ho]. destruct (vacuumTuple_spec t Hl Ho) as (r & -> & Hr). pose proof (vt_size t Hl) as Hs.
      assert (Hu' : (usedSpace tsz (done ++ vt t :: todo) <= entryPageSpace)%N).
      { rewrite used_app in *. cbn [usedSpace fold_right] in *. lia. }
      destruct (N.ltb_spec entryPageSpace (usedSpace tsz (done ++ vt t :: todo))); [lia|]. rewrite andb_false_r.
      destruct (IH (done ++ [vt t]) (ch || r)) as (r' & -> & Hr'); [intros; apply H; right; assumption|rewrite <- app_assoc; exact Hu'|].
      exists (r || r'). rewrite <- app_assoc, orb_assoc. split; [reflexivity|]. intro E. apply orb_false_iff in E as [E1 E2]. rewrite Hr, Hr' by assumption. reflexivity.
  Qed.

  (** ** the leaf page replaced *)
  Lemma get_set (st : list (page etup)) b pg items : get st b = Some pg -> forall b', get (set_page st b pg items (p_downs pg)) b' =
    if b' =? b then Some (mkPage (p_leaf pg) items (p_downs pg) (p_bound pg) (p_left pg) (p_right pg) (p_deleted pg)) else get st b'.
  Proof.
    intros Hg b'. unfold set_page, get in *. destruct (Nat.eqb_spec b' b) as [->|N].
    - apply nth_upd_same. eapply nth_some_lt; eauto.
    - apply nth_upd_other. congruence.
  Qed.
  Lemma links_set (st : list (page etup)) b pg items : get st b = Some pg -> forall L prv, links st prv L -> links (set_page st b pg items (p_downs pg)) prv L.
  Proof.
    intros Hg. induction L as [|c L IH]; intros prv H; [exact I|]. cbn [links] in *. destruct H as (pc & Hc & Hl & Hr & H). rewrite (get_set st b pg items Hg c).
    destruct (Nat.eqb_spec c b) as [->|N].
    - rewrite Hg in Hc. injection Hc as <-. eexists. split; [reflexivity|]. auto.
    - exists pc. auto.
  Qed.
  Lemma leaf_replaced st G b pg : EInv st 0 G -> at_ G 0 b -> get st b = Some pg -> (forall t, In t (p_items pg) -> list_ok t) ->
    EInv (set_page st b pg (map vt (p_items pg)) (p_downs pg)) 0 G.
  Proof.
    intros HI Hat Hg Hl. constructor.
    - exact (I_top _ _ _ _ _ _ _ _ _ HI).
    - exact (I_nodup _ _ _ _ _ _ _ _ _ HI).
    - intros h L HL. apply links_set; [exact Hg|]. exact (I_links _ _ _ _ _ _ _ _ _ HI h L HL).
    - intros h c Hc. destruct (I_page _ _ _ _ _ _ _ _ _ HI h c Hc) as (pc & Hgc & H). unfold page_ok. rewrite (get_set st b pg _ Hg c).
      destruct (Nat.eqb_spec c b) as [->|N]; [|exists pc; split; [exact Hgc|exact H]].
      rewrite Hg in Hgc. injection Hgc as <-.
      assert (h = 0) as ->.
      { destruct (I_page _ _ _ _ _ _ _ _ _ HI 0 b Hat) as (p0 & Hg0 & Hl0 & _). rewrite Hg in Hg0. injection Hg0 as <-. destruct H as [H _]. rewrite Hl0 in H. symmetry in H. apply Nat.eqb_eq in H. exact H. } destruct H as (A & B & C & D & E & F).
      eexists. split; [reflexivity|]. cbn [p_leaf p_deleted p_left p_right p_bound]. repeat (split; [assumption|]).
      cbn [body] in *. unfold leaf_body in *. cbn [p_downs p_items p_right]. destruct F as (F1 & F2 & F3 & F4 & F5 & F6 & F7).
      assert (Er : forall lo hi t, in_range cmp lo hi t -> in_range cmp lo hi (vt t)).
      { intros lo hi t [R1 R2]. split.
        - unfold blt, bcmp in *. destruct lo; try lia. rewrite (proj2 (vt_cmp t _)). exact R1.
        - unfold ble, bcmp in *. destruct hi; try lia. rewrite (proj1 (vt_cmp t _)). exact R2. }
      split; [exact F1|]. split; [exact F2|]. split; [|split; [|split; [|split]]].
      + clear - F3. induction F3 as [|t l _ IH Hf]; cbn [map]; [constructor|]. apply ssorted_cons; [exact IH|]. rewrite Forall_map. eapply Forall_impl; [|exact Hf].
        cbn. intros t' Ht. rewrite (proj1 (vt_cmp t _)), (proj2 (vt_cmp t' _)). exact Ht.
      + rewrite Forall_map, Forall_forall in *. intros t Ht. specialize (F4 t Ht). pose proof (vt_size t (Hl t Ht)). unfold EntryTreeProof.et_ok in *. lia.
      + unfold EntryTreeProof.et_fit in *. pose proof (vts_size (p_items pg) Hl). lia.
      + intros x Hx. apply in_map_iff in Hx as (t & <- & Ht). apply Er. apply F6. exact Ht.
      + intros Q Hr x Hx. destruct (F7 Q Hr x Hx) as (y & Hy & Ey). exists (vt y). split; [apply in_map; exact Hy|]. rewrite (proj2 (vt_cmp y x)). exact Ey.
  Qed.
  Lemma complete_replaced (st : list (page etup)) G b pg items : get st b = Some pg -> complete st 0 G -> complete (set_page st b pg items (p_downs pg)) 0 G.
  Proof.
    intros Hg HC h c Hc Hn Hx. destruct (HC h c Hc Hn Hx) as (p & pp & k & H1 & H2 & H3). destruct (Nat.eq_dec p b) as [->|N].
    - rewrite Hg in H2. injection H2 as <-. eexists b, _, k. split; [exact H1|]. rewrite (get_set st b pg items Hg b), Nat.eqb_refl. split; [reflexivity|]. exact H3.
    - exists p, pp, k. split; [exact H1|]. rewrite (get_set st b pg items Hg p). destruct (Nat.eqb_spec p b); [contradiction|]. auto.
  Qed.
  Lemma items_set (st : list (page etup)) b pg items c : get st b = Some pg -> items_at (set_page st b pg items (p_downs pg)) c = if c =? b then items else items_at st c.
  Proof. intro Hg. unfold items_at. rewrite (get_set st b pg items Hg c). destruct (c =? b); reflexivity. Qed.
  Lemma items_other (st : list (page etup)) b pg items L : get st b = Some pg -> ~ In b L -> flat_map (items_at (set_page st b pg items (p_downs pg))) L = flat_map (items_at st) L.
  Proof.
    intros Hg. induction L as [|c L IH]; intro Hn; [reflexivity|]. cbn [flat_map]. rewrite (items_set st b pg items c Hg). destruct (Nat.eqb_spec c b) as [->|N]; [exfalso; apply Hn; left; reflexivity|].
    rewrite IH; [reflexivity|]. intro H. apply Hn. right. exact H.
  Qed.

  (** ** posting trees *)
  Notation rowsAt ix t := (tupleRows ix t).
  Definition vpart (ix s : istate) (t t' : etup) : Prop :=
    t_key t' = t_key t /\ exists R R', rowsAt ix t = Some R /\ rowsAt s t' = Some R' /\ ssorted (rcmp (t_key t)) R' /\ incl R' R /\ filter live R' = filter live R.
  Lemma vpart_trans ix1 ix2 ix3 t1 t2 t3 : vpart ix1 ix2 t1 t2 -> vpart ix2 ix3 t2 t3 -> vpart ix1 ix3 t1 t3.
  Proof.
    intros (E1 & R1 & R2 & A1 & A2 & A3 & A4 & A5) (E2 & R2' & R3 & B1 & B2 & B3 & B4 & B5). rewrite A2 in B1. injection B1 as <-.
    split; [congruence|]. exists R1, R3. split; [exact A1|]. split; [exact B2|]. split; [rewrite E1 in B3; exact B3|]. split; [eapply incl_tran; eauto|congruence].
  Qed.
  Lemma vpart_same c tight ix s t : data_ok tight c ix t -> rowsAt s t = rowsAt ix t -> vpart ix s t t.
  Proof.
    intros Hd E. destruct (rows_of compareFn altOf attrOf cmpA Hcols tight c ix t Hd) as (R & HR & Hs & _). split; [reflexivity|]. exists R, R. rewrite E.
    split; [exact HR|]. split; [exact HR|]. split; [exact Hs|]. split; [apply incl_refl|reflexivity].
  Qed.

  Lemma nth_set_tree (ix : istate) n t m : n < length (i_trees ix) -> nth_error (i_trees (set_tree ix n t)) m = if m =? n then Some t else nth_error (i_trees ix) m.
  Proof.
    intro Hn. unfold set_tree. cbn [i_trees]. destruct (Nat.eqb_spec m n) as [->|N]; [apply nth_upd_same; exact Hn|apply nth_upd_other; congruence].
  Qed.
  Lemma rows_set_tree (ix : istate) n t x : n < length (i_trees ix) -> rowsAt (set_tree ix n t) x = match t_data x with
      | PTree m => if m =? n then ptScan t else rowsAt ix x | PList _ => rowsAt ix x end.
  Proof. intro Hn. unfold tupleRows. destruct (t_data x) as [R|m]; [reflexivity|]. rewrite (nth_set_tree ix n t m Hn). destruct (m =? n); reflexivity. Qed.

  Definition isTree (t : etup) (l : list nat) : bool := match t_data t with PTree n => existsb (Nat.eqb n) l | PList _ => false end.
  Lemma vacuumTrees_spec G : forall l ix, IInv false true ix G -> (forall n, In n l -> exists t, In t (cont ix G) /\ t_data t = PTree n) ->
    exists tr, vacuumTrees dead ix l = Some tr /\ i_entry (last tr ix) = i_entry ix /\ IInv false true (last tr ix) G /\
      (forall t, In t (cont ix G) -> rowsAt (last tr ix) t = if isTree t l then option_map (filter live) (rowsAt ix t) else rowsAt ix t) /\
      Forall (fun s => i_entry s = i_entry ix /\ forall t, In t (cont ix G) -> vpart ix s t t) tr.
  Proof.
    induction l as [|n l IH]; intros ix HI Hn; cbn [vacuumTrees].
    - exists []. split; [reflexivity|]. split; [reflexivity|]. split; [exact HI|]. split; [|constructor]. intros t _. unfold isTree. destruct (t_data t); reflexivity.
    - destruct (Hn n (or_introl eq_refl)) as (t0 & Ht0 & E0). pose proof (X_data _ _ _ _ _ _ _ _ _ HI t0 Ht0) as Hd. unfold IndexProof.data_ok in Hd. rewrite E0 in Hd.
      destruct Hd as (st & Gt & Hst & HT & HC). specialize (HC eq_refl). rewrite Hst.
      destruct (vacuum_inv (altOf (k_att (t_key t0))) (attrOf (k_att (t_key t0))) cmpA (Hatt _) HA dead st Gt HT HC) as (trt & Ev & (Gt' & HT' & HC' & Ec) & Ftr).
      rewrite Ev. assert (Hlt : n < length (i_trees ix)) by (eapply nth_some_lt; eauto).
      assert (Est : set_tree ix n st = ix).
      { unfold set_tree. assert (upd (i_trees ix) n st = i_trees ix) as ->; [|destruct ix; reflexivity].
        clear - Hst. revert n Hst. generalize (i_trees ix). induction l as [|y l IH]; intros [|n] H; cbn in *; try discriminate; [injection H as ->; reflexivity|]. rewrite (IH n H). reflexivity. }
      set (ix1 := last (map (set_tree ix n) trt) ix). assert (E1 : ix1 = set_tree ix n (last trt st)) by (unfold ix1; apply last_map; exact Est).
      assert (Hrt : forall t, In t (cont ix G) -> t_data t = PTree n -> t = t0) by (intros t Ht E; apply (X_own _ _ _ _ _ _ _ _ _ HI t t0 n); assumption).
      assert (Hsc : ptScan st = Some (contents st Gt)) by (unfold ptScan; eapply (scan_spec (rcmp (t_key t0)) (cri_total _ cmpA HA)); eauto).
      assert (Hsc1 : ptScan (last trt st) = Some (filter live (contents st Gt))) by (etransitivity; [unfold ptScan; eapply (scan_spec (rcmp (t_key t0)) (cri_total _ cmpA HA)); eauto|f_equal; exact Ec]).
      assert (HI1 : IInv false true ix1 G).
      { rewrite E1. constructor; [exact (X_inv _ _ _ _ _ _ _ _ _ HI)|exact (X_comp _ _ _ _ _ _ _ _ _ HI)| |exact (X_own _ _ _ _ _ _ _ _ _ HI)].
        cbn [set_tree i_entry]. intros t Ht. pose proof (X_data _ _ _ _ _ _ _ _ _ HI t Ht) as Hd. unfold IndexProof.data_ok in *. destruct (t_data t) as [R|m] eqn:E; [exact Hd|].
        rewrite (nth_set_tree ix n _ m Hlt). destruct (Nat.eqb_spec m n) as [->|N]; [|exact Hd].
        rewrite (Hrt t Ht E). exists (last trt st), Gt'. split; [reflexivity|]. split; [exact HT'|]. intros _. exact HC'. }
      assert (Hr1 : forall t, In t (cont ix G) -> rowsAt ix1 t = if isTree t [n] then option_map (filter live) (rowsAt ix t) else rowsAt ix t).
      { intros t Ht. rewrite E1, (rows_set_tree ix n _ t Hlt). unfold isTree. destruct (t_data t) as [R|m] eqn:E; [reflexivity|]. cbn [existsb]. rewrite orb_false_r.
        destruct (Nat.eqb_spec m n) as [->|N]; [|reflexivity]. rewrite Hsc1. unfold tupleRows. rewrite E, Hst, Hsc. reflexivity. }
      destruct (IH ix1 HI1) as (tr & Et & Ee & HI2 & Hr2 & F2).
      { intros m Hm. destruct (Hn m (or_intror Hm)) as (t & Ht & E). exists t. split; [rewrite E1; exact Ht|exact E]. }
      rewrite Et. cbn [option_map]. exists (map (set_tree ix n) trt ++ tr). split; [reflexivity|]. rewrite last_app. fold ix1.
      assert (Ee1 : i_entry ix1 = i_entry ix) by (rewrite E1; reflexivity).
      split; [congruence|]. split; [exact HI2|]. rewrite Ee1 in *. split.
      + intros t Ht. rewrite (Hr2 t Ht), (Hr1 t Ht). unfold isTree. destruct (t_data t) as [R|m]; [reflexivity|]. cbn [existsb]. rewrite orb_false_r.
        destruct (Nat.eqb_spec m n), (existsb (Nat.eqb m) l); cbn [orb]; try reflexivity. destruct (rowsAt ix t); [|reflexivity]. cbn [option_map]. rewrite filter2. reflexivity.
      + apply Forall_app. split.
        * apply Forall_map. eapply Forall_impl; [|exact Ftr]. intros s (R' & S1 & S2 & S3 & S4). split; [reflexivity|]. intros t Ht.
          destruct (Nat.eq_dec 0 0) as [_|N]; [|congruence]. destruct (t_data t) as [R|m] eqn:E.
          -- apply (vpart_same true false); [exact (X_data _ _ _ _ _ _ _ _ _ HI t Ht)|]. rewrite (rows_set_tree ix n s t Hlt), E. reflexivity.
          -- destruct (Nat.eq_dec m n) as [->|N].
             ++ rewrite (Hrt t Ht E) in *. split; [reflexivity|]. exists (contents st Gt), R'. split; [unfold tupleRows; rewrite E0, Hst; exact Hsc|].
                split; [rewrite (rows_set_tree ix n s t0 Hlt), E0, Nat.eqb_refl; exact S1|]. auto.
             ++ apply (vpart_same true false); [exact (X_data _ _ _ _ _ _ _ _ _ HI t Ht)|]. rewrite (rows_set_tree ix n s t Hlt), E. destruct (Nat.eqb_spec m n); [contradiction|reflexivity].
        * eapply Forall_impl; [|exact F2]. intros s [S1 S2]. split; [exact S1|]. intros t Ht. eapply vpart_trans; [|apply S2; exact Ht].
          destruct (rows_of compareFn altOf attrOf cmpA Hcols false true ix t (X_data _ _ _ _ _ _ _ _ _ HI t Ht)) as (R & HR & HRs & _).
          split; [reflexivity|]. exists R. rewrite (Hr1 t Ht). destruct (isTree t [n]).
          -- exists (filter live R). rewrite HR. split; [reflexivity|]. split; [reflexivity|]. split; [apply ssorted_filter; exact HRs|]. split; [intros y Hy; apply filter_In in Hy; apply Hy|apply filter2].
          -- exists R. split; [exact HR|]. split; [exact HR|]. split; [exact HRs|]. split; [apply incl_refl|reflexivity].
  Qed.

  (** ** pages *)
  Lemma IInv_loose tight c ix G : IInv tight c ix G -> IInv false c ix G.
  Proof.
    intros [A B C D]. constructor; [exact A|exact B| |exact D]. intros t Ht. specialize (C t Ht). unfold IndexProof.data_ok in *.
    destruct (t_data t); [exact C|]. destruct C as (st & Gt & H1 & H2 & H3). exists st, Gt. split; [exact H1|]. split; [exact (inv_weaken _ _ _ _ _ _ _ _ H2)|exact H3].
  Qed.
  Lemma data_vt c ix ix1 t : i_trees ix1 = i_trees ix -> data_ok false c ix t -> data_ok false c ix1 (vt t).
  Proof.
    intros E. unfold IndexProof.data_ok, vt. destruct (t_data t) as [R|n] eqn:Ed; [|rewrite Ed, E; auto]. cbn [t_data t_key].
    intros [H1 H2]. split; [apply ssorted_filter; exact H1|]. apply Forall_forall. intros y Hy. apply filter_In in Hy as [Hy _]. rewrite Forall_forall in H2. auto.
  Qed.
  Lemma cont_split (e : list (page etup)) (G : ghost) L1 b L2 pg : nth_error (lv G) 0 = Some (L1 ++ b :: L2) -> get e b = Some pg ->
    contents e G = flat_map (items_at e) L1 ++ p_items pg ++ flat_map (items_at e) L2.
  Proof.
    intros HL Hg. unfold contents. destruct (lv G) as [|L l]; [discriminate|]. cbn in HL. injection HL as ->. rewrite flat_map_app. cbn [flat_map].
    f_equal. f_equal. unfold items_at. rewrite Hg. reflexivity.
  Qed.
  Lemma roots_in n items : In n (roots items) <-> exists t : etup, In t items /\ t_data t = PTree n.
  Proof.
    unfold roots. rewrite in_flat_map. split.
    - intros (t & Ht & H). exists t. destruct (t_data t); [destruct H|]. destruct H as [->|[]]. auto.
    - intros (t & Ht & E). exists t. rewrite E. split; [exact Ht|left; reflexivity].
  Qed.
  Lemma forall2_app3 {A} (P : A -> A -> Prop) a a' b b' c c' : Forall2 P a a' -> Forall2 P b b' -> Forall2 P c c' -> Forall2 P (a ++ b ++ c) (a' ++ b' ++ c').
  Proof. intros H1 H2 H3. apply Forall2_app; [exact H1|]. apply Forall2_app; assumption. Qed.
  Lemma forall2_refl {A} (P : A -> A -> Prop) l : (forall x, In x l -> P x x) -> Forall2 P l l.
  Proof. induction l as [|x l IH]; intro H; constructor; [apply H; left; reflexivity|apply IH; intros; apply H; right; assumption]. Qed.
  Lemma forall2_map {A B} (P : A -> B -> Prop) (f : A -> B) l : (forall x, In x l -> P x (f x)) -> Forall2 P l (map f l).
  Proof. induction l as [|x l IH]; intro H; constructor; [apply H; left; reflexivity|apply IH; intros; apply H; right; assumption]. Qed.
  Lemma forall2_trans {A} (P Q R : A -> A -> Prop) : (forall x y z, P x y -> Q y z -> R x z) -> forall l1 l2 l3, Forall2 P l1 l2 -> Forall2 Q l2 l3 -> Forall2 R l1 l3.
  Proof. intros H l1 l2 l3 H1. revert l3. induction H1; intros l3 H2; inversion H2; subst; constructor; eauto. Qed.

  Definition vtrace (ix : istate) (G : ghost) (s : istate) : Prop := EInv (i_entry s) 0 G /\ Forall2 (vpart ix s) (cont ix G) (cont s G).
  Lemma vt_part ix ix1 t : data_ok false true ix t -> rowsAt ix1 (vt t) = option_map (filter live) (rowsAt ix t) -> vpart ix ix1 t (vt t).
  Proof.
    intros Hd E. destruct (rows_of compareFn altOf attrOf cmpA Hcols false true ix t Hd) as (R & HR & HRs & _). split; [apply vt_key|]. exists R, (filter live R).
    rewrite E, HR. split; [reflexivity|]. split; [reflexivity|]. split; [apply ssorted_filter; exact HRs|]. split; [intros y Hy; apply filter_In in Hy; apply Hy|apply filter2].
  Qed.

  Lemma vacuumPage_spec ix G L1 b L2 pg : IInv false true ix G -> nth_error (lv G) 0 = Some (L1 ++ b :: L2) -> get (i_entry ix) b = Some pg ->
    let A := flat_map (items_at (i_entry ix)) L1 in let B := flat_map (items_at (i_entry ix)) L2 in
    exists tr, vacuumPage altOf attrOf rawSize dead ix b pg = Some (tr, Done) /\ let ix1 := last tr ix in
      IInv false true ix1 G /\ flat_map (items_at (i_entry ix1)) L1 = A /\ flat_map (items_at (i_entry ix1)) L2 = B /\
      (exists pg1, get (i_entry ix1) b = Some pg1 /\ p_items pg1 = map vt (p_items pg)) /\
      (forall t, In t (A ++ B) -> rowsAt ix1 t = rowsAt ix t) /\
      (forall t, In t (p_items pg) -> rowsAt ix1 (vt t) = option_map (filter live) (rowsAt ix t)) /\
      (forall c, c <> b -> items_at (i_entry ix1) c = items_at (i_entry ix) c) /\
      Forall (vtrace ix G) tr.
  Proof.
    intros HI HL Hg. cbv zeta. set (A := flat_map (items_at (i_entry ix)) L1). set (B := flat_map (items_at (i_entry ix)) L2).
    pose proof (X_inv _ _ _ _ _ _ _ _ _ HI) as HE.
    assert (Hat : at_ G 0 b) by (eexists; split; [exact HL|apply in_app_iff; right; left; reflexivity]).
    assert (HC : cont ix G = A ++ p_items pg ++ B) by (exact (cont_split (i_entry ix) G L1 b L2 pg HL Hg)).
    assert (Hin : forall t, In t (p_items pg) -> In t (cont ix G)) by (intros t Ht; rewrite HC; apply in_app_iff; right; apply in_app_iff; left; exact Ht).
    assert (Hlo : forall t, In t (p_items pg) -> list_ok t).
    { intros t Ht rows E. pose proof (X_data _ _ _ _ _ _ _ _ _ HI t (Hin t Ht)) as Hd. unfold IndexProof.data_ok in Hd. rewrite E in Hd. exact Hd. }
    destruct (I_page _ _ _ _ _ _ _ _ _ HE 0 b Hat) as (pg' & Hg' & _ & _ & _ & _ & _ & Hb). rewrite Hg in Hg'. injection Hg' as <-. cbn [body] in Hb. unfold leaf_body in Hb.
    destruct Hb as (_ & _ & _ & Hok & Hfit & _).
    assert (Hnd : NoDup (L1 ++ b :: L2)).
    { pose proof (I_nodup _ _ _ _ _ _ _ _ _ HE) as Hn. destruct (lv G) as [|L l]; [discriminate|]. cbn in HL. injection HL as ->. cbn [concat] in Hn. apply nodup_app in Hn. apply Hn. }
    assert (Hn1 : ~ In b L1 /\ ~ In b L2).
    { apply NoDup_remove_2 in Hnd. rewrite in_app_iff in Hnd. tauto. }
    (* tuples of other leaves have other trees *)
    assert (Hdis : forall t t', In t (A ++ B) -> In t' (p_items pg) -> t <> t').
    { intros t t' Ht Ht' ->. assert (Hs : ssorted cmp (cont ix G)) by (eapply (contents_sorted cmp OK); eauto).
      rewrite HC in Hs. apply ssorted_app in Hs as (_ & Hs & H1). apply ssorted_app in Hs as (_ & _ & H2). apply in_app_iff in Ht as [Ht|Ht].
      - specialize (H1 t' t' Ht ltac:(apply in_app_iff; auto)). pose proof (tc_refl _ OK t'). lia.
      - specialize (H2 t' t' Ht' Ht). pose proof (tc_refl _ OK t'). lia. }
    assert (HAB : forall t, In t (A ++ B) -> In t (cont ix G)).
    { intros t Ht. rewrite HC. apply in_app_iff in Ht as [Ht|Ht]; apply in_app_iff; [auto|right; apply in_app_iff; auto]. }
    unfold vacuumPage. destruct (vacuumTuples_spec (p_items pg) [] false) as (ch & -> & Hch).
    { intros t Ht. split; [exact (Hlo t Ht)|]. rewrite Forall_forall in Hok. exact (Hok t Ht). }
    { exact Hfit. }
    cbn [orb app]. set (e1 := set_page (i_entry ix) b pg (map vt (p_items pg)) (p_downs pg)).
    set (tr1 := if ch then [set_entry ix e1] else []).
    (* after the page was written *)
    assert (H0 : exists pg0, let ix0 := last tr1 ix in IInv false true ix0 G /\ i_trees ix0 = i_trees ix /\
       flat_map (items_at (i_entry ix0)) L1 = A /\ flat_map (items_at (i_entry ix0)) L2 = B /\ get (i_entry ix0) b = Some pg0 /\ p_items pg0 = map vt (p_items pg) /\
       (forall c, c <> b -> items_at (i_entry ix0) c = items_at (i_entry ix) c) /\ Forall (vtrace ix G) tr1).
    { unfold tr1. destruct ch; cbn [last].
      - exists (mkPage (p_leaf pg) (map vt (p_items pg)) (p_downs pg) (p_bound pg) (p_left pg) (p_right pg) (p_deleted pg)). cbv zeta. cbn [set_entry i_entry i_trees].
        assert (G1 : get e1 b = Some (mkPage (p_leaf pg) (map vt (p_items pg)) (p_downs pg) (p_bound pg) (p_left pg) (p_right pg) (p_deleted pg))).
        { unfold e1. rewrite (get_set (i_entry ix) b pg _ Hg b), Nat.eqb_refl. reflexivity. }
        assert (A1 : flat_map (items_at e1) L1 = A) by (apply items_other; [exact Hg|apply Hn1]).
        assert (B1 : flat_map (items_at e1) L2 = B) by (apply items_other; [exact Hg|apply Hn1]).
        assert (C1 : contents e1 G = A ++ map vt (p_items pg) ++ B) by (rewrite (cont_split e1 G L1 b L2 _ HL G1), A1, B1; reflexivity).
        assert (E1 : EInv e1 0 G) by (apply leaf_replaced; assumption).
        split; [|split; [reflexivity|split; [exact A1|split; [exact B1|split; [exact G1|split; [reflexivity|split; [intros c Hc; unfold e1; rewrite (items_set (i_entry ix) b pg _ c Hg); destruct (Nat.eqb_spec c b); [contradiction|reflexivity]|]]]]]]].
        + constructor; cbn [set_entry i_entry i_trees].
          * exact E1.
          * intros _. apply complete_replaced; [exact Hg|]. exact (X_comp _ _ _ _ _ _ _ _ _ HI eq_refl).
          * intros t Ht. rewrite C1 in Ht. assert (Ht' : In t (A ++ B) \/ In t (map vt (p_items pg))) by (rewrite !in_app_iff in *; tauto).
            destruct Ht' as [Ht'|Ht']; [exact (X_data _ _ _ _ _ _ _ _ _ HI t (HAB t Ht'))|]. apply in_map_iff in Ht' as (t' & <- & Ht').
            apply (data_vt true ix); [reflexivity|]. exact (X_data _ _ _ _ _ _ _ _ _ HI t' (Hin t' Ht')).
          * assert (Hold : forall t n, In t (contents e1 G) -> t_data t = PTree n -> In t (cont ix G)).
            { intros t n Ht E. rewrite C1 in Ht. assert (Ht' : In t (A ++ B) \/ In t (map vt (p_items pg))) by (rewrite !in_app_iff in *; tauto).
              destruct Ht' as [Ht'|Ht']; [exact (HAB t Ht')|]. apply in_map_iff in Ht' as (t' & <- & Ht'). rewrite (vt_tree t' n E). apply Hin. exact Ht'. }
            intros t1 t2 n T1 T2 D1 D2. apply (X_own _ _ _ _ _ _ _ _ _ HI t1 t2 n); eauto.
        + constructor; [|constructor]. split; [exact E1|]. cbn [set_entry i_entry]. rewrite HC, C1.
          apply forall2_app3; [apply forall2_refl|apply forall2_map|apply forall2_refl].
          * intros t Ht. apply (vpart_same true false); [|reflexivity]. exact (X_data _ _ _ _ _ _ _ _ _ HI t (HAB t ltac:(apply in_app_iff; auto))).
          * intros t Ht. pose proof (X_data _ _ _ _ _ _ _ _ _ HI t (Hin t Ht)) as Hd. destruct (t_data t) as [R|n] eqn:Ed.
            -- apply vt_part; [exact Hd|]. unfold vt, tupleRows. rewrite Ed. reflexivity.
            -- rewrite (vt_tree' t n Ed). apply (vpart_same true false); [exact Hd|reflexivity].
          * intros t Ht. apply (vpart_same true false); [|reflexivity]. exact (X_data _ _ _ _ _ _ _ _ _ HI t (HAB t ltac:(apply in_app_iff; auto))).
      - exists pg. cbv zeta. split; [exact HI|]. split; [reflexivity|]. split; [reflexivity|]. split; [reflexivity|]. split; [exact Hg|]. split; [symmetry; apply Hch; reflexivity|]. split; [reflexivity|constructor]. }
    destruct H0 as (pg0 & HI0 & Et0 & A0 & B0 & Hg0 & Ei0 & Pw0 & F0). set (ix0 := last tr1 ix) in *.
    assert (C0 : cont ix0 G = A ++ map vt (p_items pg) ++ B) by (rewrite (cont_split (i_entry ix0) G L1 b L2 pg0 HL Hg0), A0, B0, Ei0; reflexivity).
    assert (R0 : forall t, rowsAt ix0 t = rowsAt ix t) by (intro t; unfold tupleRows; rewrite Et0; reflexivity).
    destruct (vacuumTrees_spec G (roots (p_items pg)) ix0 HI0) as (tr2 & E2 & Ee2 & HI2 & Hr2 & F2).
    { intros n Hn. apply roots_in in Hn as (t & Ht & E). exists t. split; [|exact E]. rewrite C0. apply in_app_iff; right. apply in_app_iff; left. rewrite <- (vt_tree' t n E). apply in_map. exact Ht. }
    rewrite E2. cbn [option_map]. exists (tr1 ++ tr2). split; [reflexivity|]. rewrite last_app. fold ix0. rewrite Ee2.
    split; [exact HI2|]. split; [exact A0|]. split; [exact B0|]. split; [exists pg0; auto|]. split; [|split; [|split; [exact Pw0|]]].
    - intros t Ht. rewrite (Hr2 t), R0; [|rewrite C0; rewrite !in_app_iff in *; tauto].
      assert (isTree t (roots (p_items pg)) = false) as ->; [|reflexivity]. unfold isTree. destruct (t_data t) as [R|n] eqn:Ed; [reflexivity|].
      apply Bool.not_true_is_false. intro H. apply existsb_exists in H as (m & Hm & Em). apply Nat.eqb_eq in Em. subst m. apply roots_in in Hm as (t' & Ht' & E').
      apply (Hdis t t' Ht Ht'). apply (X_own _ _ _ _ _ _ _ _ _ HI t t' n); auto.
    - intros t Ht. rewrite (Hr2 (vt t)), R0; [|rewrite C0; apply in_app_iff; right; apply in_app_iff; left; apply in_map; exact Ht].
      unfold isTree. destruct (t_data t) as [R|n] eqn:Ed.
      + unfold vt, tupleRows. rewrite Ed. reflexivity.
      + rewrite (vt_tree' t n Ed), Ed. assert (existsb (Nat.eqb n) (roots (p_items pg)) = true) as ->; [|reflexivity].
        apply existsb_exists. exists n. split; [apply roots_in; eauto|apply Nat.eqb_refl].
    - apply Forall_app. split; [exact F0|]. eapply Forall_impl; [|exact F2]. intros s [S1 S2]. split; [rewrite S1; exact (X_inv _ _ _ _ _ _ _ _ _ HI0)|].
      rewrite S1. fold (cont ix0 G). rewrite HC, C0. apply forall2_app3; [apply forall2_refl|apply forall2_map|apply forall2_refl].
      + intros t Ht. assert (Hx : In t (cont ix0 G)) by (rewrite C0, !in_app_iff; tauto). eapply vpart_trans; [|exact (S2 t Hx)]. apply (vpart_same true false); [|apply R0].
        exact (X_data _ _ _ _ _ _ _ _ _ HI t (HAB t ltac:(apply in_app_iff; auto))).
      + intros t Ht. assert (Hx : In (vt t) (cont ix0 G)) by (rewrite C0; apply in_app_iff; right; apply in_app_iff; left; apply in_map; exact Ht). eapply vpart_trans; [|exact (S2 _ Hx)].
        pose proof (X_data _ _ _ _ _ _ _ _ _ HI t (Hin t Ht)) as Hd. destruct (t_data t) as [R|n] eqn:Ed.
        * apply vt_part; [exact Hd|]. rewrite R0. unfold vt, tupleRows. rewrite Ed. reflexivity.
        * rewrite (vt_tree' t n Ed). apply (vpart_same true false); [exact Hd|apply R0].
      + intros t Ht. assert (Hx : In t (cont ix0 G)) by (rewrite C0, !in_app_iff; tauto). eapply vpart_trans; [|exact (S2 t Hx)]. apply (vpart_same true false); [|apply R0].
        exact (X_data _ _ _ _ _ _ _ _ _ HI t (HAB t ltac:(apply in_app_iff; auto))).
  Qed.

  Lemma vtrace_trans ix G ix1 s : vtrace ix G ix1 -> vtrace ix1 G s -> vtrace ix G s.
  Proof. intros [_ A2] [B1 B2]. split; [exact B1|]. eapply forall2_trans; [|exact A2|exact B2]. intros x y z. apply vpart_trans. Qed.
  Lemma vtrace_refl ix G : IInv false true ix G -> vtrace ix G ix.
  Proof.
    intro HI. split; [exact (X_inv _ _ _ _ _ _ _ _ _ HI)|]. apply forall2_refl. intros t Ht. apply (vpart_same true false); [|reflexivity]. exact (X_data _ _ _ _ _ _ _ _ _ HI t Ht).
  Qed.
  Lemma vtrace_last ix G tr : IInv false true ix G -> Forall (vtrace ix G) tr -> vtrace ix G (last tr ix).
  Proof.
    intros HI H. destruct tr as [|s tr _] using rev_ind; [apply vtrace_refl; exact HI|]. rewrite last_last. apply Forall_app in H as [_ H]. apply Forall_inv in H. exact H.
  Qed.
  Lemma flat_ext (f g : nat -> list etup) L : (forall c, In c L -> f c = g c) -> flat_map f L = flat_map g L.
  Proof. induction L as [|c L IH]; intro H; [reflexivity|]. cbn [flat_map]. rewrite (H c (or_introl eq_refl)), IH; [reflexivity|]. intros; apply H; right; assumption. Qed.
  Lemma vacuumLeaves_spec G : forall L2 L1 b fuel ix, IInv false true ix G -> nth_error (lv G) 0 = Some (L1 ++ b :: L2) -> length L2 < fuel ->
    let A := flat_map (items_at (i_entry ix)) L1 in let B := flat_map (items_at (i_entry ix)) (b :: L2) in
    exists tr, vacuumLeavesFrom altOf attrOf rawSize dead fuel ix b = Some (tr, Done) /\ let ix1 := last tr ix in
      IInv false true ix1 G /\ (forall c, In c L1 -> items_at (i_entry ix1) c = items_at (i_entry ix) c) /\ flat_map (items_at (i_entry ix1)) (b :: L2) = map vt B /\
      (forall t, In t A -> rowsAt ix1 t = rowsAt ix t) /\
      (forall t, In t B -> rowsAt ix1 (vt t) = option_map (filter live) (rowsAt ix t)) /\
      Forall (vtrace ix G) tr.
  Proof.
    induction L2 as [|r L2 IH]; intros L1 b fuel ix HI HL Hf; cbv zeta; (destruct fuel as [|f]; [cbn in Hf; lia|]); cbn [vacuumLeavesFrom];
      (assert (Hat : at_ G 0 b) by (eexists; split; [exact HL|apply in_app_iff; right; left; reflexivity]);
       pose proof (X_inv _ _ _ _ _ _ _ _ _ HI) as HE; destruct (page_get cmp (et_ifit rawSize) true et_ok et_fit true (i_entry ix) 0 G HE 0 b Hat) as [pg Hg]; rewrite Hg;
       pose proof (I_links _ _ _ _ _ _ _ _ _ HE _ _ HL) as Hl; apply links_at in Hl as (pg' & Hg' & Hr' & _); rewrite Hg in Hg'; injection Hg' as <-;
       assert (Ei : items_at (i_entry ix) b = p_items pg) by (unfold items_at; rewrite Hg; reflexivity);
       assert (Hnd : NoDup (L1 ++ b :: _)) by (pose proof (I_nodup _ _ _ _ _ _ _ _ _ HE) as Hn; destruct (lv G) as [|L l]; [discriminate|]; cbn in HL; injection HL as ->; cbn [concat] in Hn; apply nodup_app in Hn; exact (proj1 Hn));
       assert (HnL : forall c, In c L1 -> c <> b) by (intros c Hc ->; apply NoDup_remove_2 in Hnd; apply Hnd; apply in_app_iff; left; exact Hc);
       destruct (vacuumPage_spec ix G L1 b _ pg HI HL Hg) as (tr & -> & HI1 & A1 & B1 & (pg1 & G1 & I1) & R1 & R2 & Pw & F1);
       assert (Ei1 : items_at (i_entry (last tr ix)) b = map vt (p_items pg)) by (unfold items_at; rewrite G1; exact I1); rewrite Hr'; cbn [hd_error]).
    - exists tr. split; [reflexivity|]. cbn [flat_map]. rewrite Ei, Ei1, !app_nil_r. split; [exact HI1|]. split; [intros c Hc; apply Pw; auto|]. split; [reflexivity|]. split; [|split; [exact R2|exact F1]].
      intros t Ht. apply R1. apply in_app_iff. auto.
    - set (ix1 := last tr ix) in *.
      destruct (IH (L1 ++ [b]) r f ix1 HI1) as (tr2 & -> & HI2 & A2 & B2 & R3 & R4 & F2).
      { rewrite <- app_assoc. exact HL. }
      { cbn in Hf. lia. }
      exists (tr ++ tr2). split; [reflexivity|]. rewrite last_app. fold ix1. set (ix2 := last tr2 ix1) in *.
      assert (Eb2 : items_at (i_entry ix2) b = map vt (p_items pg)) by (rewrite (A2 b); [exact Ei1|apply in_app_iff; right; left; reflexivity]).
      rewrite B1 in B2, R4. rewrite flat_map_app in R3. cbn [flat_map] in R3. rewrite app_nil_r, A1, Ei1 in R3.
      split; [exact HI2|]. split; [|split; [|split; [|split]]].
      + intros c Hc. rewrite (A2 c); [apply Pw; auto|apply in_app_iff; auto].
      + change (items_at (i_entry ix2) b ++ flat_map (items_at (i_entry ix2)) (r :: L2) = map vt (items_at (i_entry ix) b ++ flat_map (items_at (i_entry ix)) (r :: L2))).
        rewrite map_app, B2, Eb2, Ei. reflexivity.
      + intros t Ht. rewrite (R3 t), (R1 t); [reflexivity|apply in_app_iff; auto|apply in_app_iff; auto].
      + intros t Ht. change (In t (items_at (i_entry ix) b ++ flat_map (items_at (i_entry ix)) (r :: L2))) in Ht. rewrite Ei in Ht. apply in_app_iff in Ht as [Ht|Ht].
        * rewrite (R3 (vt t)), (R2 t Ht); [reflexivity|]. apply in_app_iff. right. apply in_map. exact Ht.
        * rewrite (R4 t Ht), (R1 t); [reflexivity|]. apply in_app_iff. auto.
      + apply Forall_app. split; [exact F1|]. eapply Forall_impl; [|exact F2]. intros s Hs. eapply vtrace_trans; [|exact Hs]. apply vtrace_last; assumption.
  Qed.

  (** ** the whole index *)
  Theorem bulkdelete_spec tight ix G : IInv tight true ix G ->
    exists tr, rumbulkdelete altOf attrOf rawSize dead ix = Some (tr, Done) /\ IInv false true (last tr ix) G /\ cont (last tr ix) G = map vt (cont ix G) /\
      (forall t, In t (cont ix G) -> rowsAt (last tr ix) (vt t) = option_map (filter live) (rowsAt ix t)) /\
      Forall (vtrace ix G) tr.
  Proof.
    intro HI. apply IInv_loose in HI. pose proof (X_inv _ _ _ _ _ _ _ _ _ HI) as HE. unfold rumbulkdelete.
    destruct (leftmost_spec cmp OK (et_ifit rawSize) true et_ok et_fit true (i_entry ix) 0 G HE (S (length (i_entry ix))) (top G) 0 []) as (b0 & L0 & HL & ->).
    { apply (top_root _ _ _ _ _ _ _ _ _ HE). }
    { pose proof (levels_le cmp _ _ _ _ _ _ _ _ HE). unfold top. lia. }
    destruct (vacuumLeaves_spec G L0 [] b0 (S (length (i_entry ix))) ix HI HL) as (tr & -> & HI1 & _ & B1 & _ & R1 & F1).
    { pose proof (concat_bound _ _ _ _ _ _ _ _ _ HE) as Hb. clear - HL Hb. destruct (lv G) as [|L l]; [discriminate|]. simpl in HL. injection HL as ->. simpl in Hb. rewrite app_length in Hb. lia. }
    exists tr. split; [reflexivity|]. split; [exact HI1|].
    assert (Hc : forall e : list (page etup), contents e G = flat_map (items_at e) (b0 :: L0)).
    { intro e. unfold contents. destruct (lv G) as [|L l]; [discriminate|]. cbn in HL. injection HL as ->. reflexivity. }
    rewrite !Hc. split; [exact B1|]. split; [exact R1|exact F1].
  Qed.
End V.
