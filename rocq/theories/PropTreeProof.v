(** Proofs for PropTree.v. *)
From Verif Require Import Base Ord OrdProof Codec CodecSpec CodecProof LeafPage LeafSpec LeafCodec LeafCodecProof PropCodecProof
  BTree BTreeInv BTreeFind BTreeIns PostingTree PostingTreeProof PostingTreeSpec.
From Coq Require Import NArith ZArith Lia List Bool Arith.
Import ListNotations.

Section Hist.
  Variables (alt : bool) (a : attr) (cmpA : datum -> datum -> Z).
  Hypothesis Hcfg : config_ok alt a.
  Hypothesis HA : total_cmp cmpA.
  Hypothesis Hsafe : safe_align a.
  Notation cmp := (compareRumItem alt cmpA).
  Let OK : total_cmp cmp := cri_total alt cmpA HA.
  Notation TInv := (Inv cmp pt_ifit false (pt_ok alt a) (fits_page alt a) true).
  Notation GInv tight := (Inv cmp pt_ifit false (pt_ok alt a) (fits_page alt a) tight).

  Lemma create_gen tight rows : ssorted cmp rows -> Forall (storable alt a) rows -> fits_page alt a rows ->
    exists G, GInv tight (createPostingTree rows) 0 G /\ complete (createPostingTree rows) 0 G /\
      contents (createPostingTree rows) G = rows.
  Proof.
    intros Hs Ho Hf. exists (mkG [[0]] (fun _ => BMin) (fun _ => BMax)). split; [|split].
    - constructor.
      + exists []. reflexivity.
      + cbn. constructor; [intros []|constructor].
      + intros [|h] L H; cbn in H; [|destruct h; discriminate]. injection H as <-.
        cbn. eexists. split; [reflexivity|]. cbn. auto.
      + intros h b (L & HL & Hb). destruct h as [|h]; cbn in HL; [|destruct h; discriminate]. injection HL as <-.
        destruct Hb as [<-|[]]. eexists. split; [reflexivity|]. cbn [p_leaf p_deleted p_left p_right].
        split; [reflexivity|]. split; [reflexivity|]. split; [unfold blt; cbn; lia|]. split; [auto|].
        split; [intros b' E; discriminate|]. cbn [body]. unfold leaf_body. cbn. split; [reflexivity|]. split; [reflexivity|].
        split; [exact Hs|]. split; [exact Ho|]. split; [exact Hf|]. split.
        * intros x Hx. split; [unfold blt|unfold ble]; cbn; lia.
        * intros _ E. congruence.
    - intros h b (L & HL & Hb) Hn. destruct h as [|h]; cbn in HL; [|destruct h; discriminate]. injection HL as <-.
      destruct Hb as [<-|[]]. congruence.
    - unfold contents. cbn. apply app_nil_r.
  Qed.
  Lemma create_inv rows : ssorted cmp rows -> Forall (storable alt a) rows -> fits_page alt a rows ->
    exists G, TInv (createPostingTree rows) 0 G /\ complete (createPostingTree rows) 0 G /\
      contents (createPostingTree rows) G = rows.
  Proof. exact (create_gen true rows). Qed.

  Lemma inv_tree_is st G : TInv st 0 G -> tree_is alt a cmpA st (contents st G).
  Proof.
    intro HI. split; [|split].
    - unfold ptScan. eapply (scan_spec cmp OK); eauto.
    - eapply (contents_sorted cmp OK); eauto.
    - intros x Hx. unfold ptLookup.
      apply (lookup_spec cmp OK pt_ifit false (pt_ok alt a) (fits_page alt a) (@p_bound _) (pt_locate alt cmpA) (findOnPage alt cmpA)
        (p_bound_ok cmp OK _ _ _ _) (dataLocate_ok cmp OK false) (pt_find_ok alt a cmpA HA) true st 0 G HI x Hx).
  Qed.

  Lemma insert_gen tight build batch st G : GInv tight st 0 G -> valid_batch alt a cmpA batch -> (tight = true \/ length batch <= 1) ->
    exists tr lost done todo, ptInsert alt a cmpA build st batch = Some (tr, lost) /\ batch = done ++ todo /\ (lost = false -> todo = []) /\
      Forall (fun s => exists u v, batch = u ++ v /\ u <> [] /\ exists Gs, GInv tight s 0 Gs /\ rows_ins cmp (contents st G) u (contents s Gs)) tr /\
      exists G', GInv tight (last tr st) 0 G' /\ rows_ins cmp (contents st G) done (contents (last tr st) G') /\
        (complete st 0 G -> lost = false /\ complete (last tr st) 0 G').
  Proof.
    intros HI (Hs & Ho & Hb) Ht. unfold ptInsert, insertAll.
    set (multi := (attr_align a =? 1)%N).
    assert (Hm : multi = true -> attr_align a = 1%N) by (unfold multi; intro H; apply N.eqb_eq; exact H).
    apply (insertItems_spec cmp OK pt_ifit false (pt_ok alt a) (fits_page alt a) (fun _ => True) (@p_bound _) item_min pt_ienough (pt_locate alt cmpA)
      (findOnPage alt cmpA) (pt_leafEnough alt a) (pt_leafPlace alt a cmpA) (splitPage alt a) (pt_isep build) pt_rkey multi).
    - apply pt_kok_ok.
    - exact pt_ienough_ok.
    - apply pt_isep_ok.
    - exact pt_iroot_ok.
    - exact (p_bound_ok cmp OK _ _ _ _).
    - apply dataLocate_ok. exact OK.
    - exact (pt_find_ok alt a cmpA HA).
    - apply pt_place_ok; auto.
    - apply pt_split_ok; auto.
    - exact HI.
    - exact Hs.
    - exact Ho.
    - destruct Ht as [->|Ht]; [|right; exact Ht]. destruct Hb as [H|H]; [right; exact H|left]. split; [|reflexivity]. unfold multi. apply N.eqb_eq. exact H.
    - lia.
  Qed.
  Lemma insert_ok build batch st G : TInv st 0 G -> valid_batch alt a cmpA batch ->
    exists tr lost done todo, ptInsert alt a cmpA build st batch = Some (tr, lost) /\ batch = done ++ todo /\ (lost = false -> todo = []) /\
      Forall (fun s => exists u v, batch = u ++ v /\ u <> [] /\ exists Gs, TInv s 0 Gs /\ rows_ins cmp (contents st G) u (contents s Gs)) tr /\
      exists G', TInv (last tr st) 0 G' /\ rows_ins cmp (contents st G) done (contents (last tr st) G') /\
        (complete st 0 G -> lost = false /\ complete (last tr st) 0 G').
  Proof. intros HI Hb. exact (insert_gen true build batch st G HI Hb (or_introl eq_refl)). Qed.

  (** the rows of the tree against the history *)
  Lemma first_of_snoc ins x y : first_of cmp (ins ++ [x]) y <-> first_of cmp ins y \/ (y = x /\ forall z, In z ins -> cmp z x <> 0%Z).
  Proof.
    split.
    - intros (l1 & l2 & E & H). destruct l2 as [|z l2 _] using rev_ind.
      + apply app_inj_tail in E as [<- <-]. right. auto.
      + left. exists l1, l2. split; [|exact H]. change (l1 ++ y :: l2 ++ [z]) with (l1 ++ (y :: l2) ++ [z]) in E.
        rewrite app_assoc in E. apply app_inj_tail in E as [E _]. exact E.
    - intros [(l1 & l2 & -> & H)|[-> H]].
      + exists l1, (l2 ++ [x]). split; [rewrite <- app_assoc; reflexivity|exact H].
      + exists ins, []. auto.
  Qed.
  Lemma first_of_in ins y : first_of cmp ins y -> In y ins.
  Proof. intros (l1 & l2 & -> & _). apply in_app_iff. right; left; reflexivity. Qed.
  Lemma first_of_exists ins x : In x ins -> exists y, first_of cmp ins y /\ cmp y x = 0%Z.
  Proof.
    induction ins as [|z ins IH] using rev_ind; intro H; [destruct H|].
    apply in_app_iff in H. destruct (existsb (fun y => (cmp y x =? 0)%Z) ins) eqn:E.
    - apply existsb_exists in E as (y & Hy & Ey). apply Z.eqb_eq in Ey.
      assert (K : exists y', first_of cmp ins y' /\ cmp y' y = 0%Z).
      { clear - Hy OK. revert y Hy. induction ins as [|w ins IH] using rev_ind; intros y Hy; [destruct Hy|].
        apply in_app_iff in Hy as [Hy|[->|[]]].
        - destruct (IH y Hy) as (y' & H1 & H2). exists y'. split; [apply first_of_snoc; auto|exact H2].
        - destruct (existsb (fun v => (cmp v y =? 0)%Z) ins) eqn:E.
          + apply existsb_exists in E as (v & Hv & Ev). apply Z.eqb_eq in Ev. destruct (IH v Hv) as (y' & H1 & H2).
            exists y'. split; [apply first_of_snoc; auto|]. 
            pose proof (cmp_eq_l cmp OK y' v y H2). lia.
          + exists y. split; [|apply (tc_refl _ OK)]. apply first_of_snoc. right. split; [reflexivity|].
            intros v Hv Ev. assert (existsb (fun v => (cmp v y =? 0)%Z) ins = true); [|congruence].
            apply existsb_exists. exists v. split; [exact Hv|apply Z.eqb_eq; exact Ev]. }
      destruct K as (y' & H1 & H2). exists y'. split; [apply first_of_snoc; auto|]. pose proof (cmp_eq_l cmp OK y' y x H2). lia.
    - destruct H as [H|[->|[]]].
      + exfalso. assert (existsb (fun y => (cmp y x =? 0)%Z) ins = true); [|congruence].
        apply existsb_exists. exists x. split; [exact H|apply Z.eqb_eq; apply (tc_refl _ OK)].
      + exists x. split; [|apply (tc_refl _ OK)]. apply first_of_snoc. right. split; [reflexivity|].
        intros v Hv Ev. assert (existsb (fun v => (cmp v x =? 0)%Z) ins = true); [|congruence].
        apply existsb_exists. exists v. split; [exact Hv|apply Z.eqb_eq; exact Ev].
  Qed.
  Lemma first_of_sorted rows y : ssorted cmp rows -> (In y rows <-> first_of cmp rows y).
  Proof.
    intro Hs. split; [|apply first_of_in]. intro Hy. apply in_split in Hy as (l1 & l2 & ->).
    exists l1, l2. split; [reflexivity|]. intros z Hz. apply ssorted_app in Hs as (_ & _ & H).
    specialize (H z y Hz (or_introl eq_refl)). lia.
  Qed.

  (** inserting a strictly sorted batch keeps "exactly the first rows" *)
  Lemma rows_ins_first ins C u C' : ssorted cmp C' -> ssorted cmp u ->
    (forall x, In x C <-> first_of cmp ins x) -> rows_ins cmp C u C' ->
    forall x, In x C' <-> first_of cmp (ins ++ u) x.
  Proof.
    intros Hs' Hsu HC (A & B & D) x.
    assert (Huniq : forall y z, In y C' -> In z C' -> cmp y z = 0%Z -> y = z) by (intros y z Hy Hz Ez; exact (ssorted_unique cmp OK C' y z Hs' Hy Hz Ez)).
    assert (Hchar : forall v, first_of cmp (ins ++ u) v <-> first_of cmp ins v \/ (In v u /\ forall z, In z ins -> cmp z v <> 0%Z)).
    { clear - Hsu OK. revert Hsu. induction u as [|w u IH] using rev_ind; intros Hsu v.
      - rewrite app_nil_r. simpl. tauto.
      - rewrite app_assoc, first_of_snoc. apply ssorted_app in Hsu as (H1 & _ & H2). rewrite (IH H1).
        rewrite in_app_iff. simpl. split.
        + intros [[H|[H H']]|[-> H]]; [auto|auto|]. right. split; [auto|]. intros z Hz. apply H. apply in_app_iff; auto.
        + intros [H|[[H|[<-|[]]] H']]; [auto|auto|]. right. split; [reflexivity|]. intros z Hz. apply in_app_iff in Hz as [Hz|Hz]; [auto|].
          specialize (H2 z w Hz (or_introl eq_refl)). lia. }
    rewrite Hchar. split.
    - intro Hx. destruct (B x Hx) as [Hc|Hu]; [left; apply HC; exact Hc|].
      destruct (existsb (fun z => (cmp z x =? 0)%Z) ins) eqn:E.
      + apply existsb_exists in E as (z & Hz & Ez). apply Z.eqb_eq in Ez. destruct (first_of_exists ins z Hz) as (y & Hy & Ey).
        left. assert (cmp y x = 0%Z) by (pose proof (cmp_eq_l cmp OK y z x Ey); lia).
        assert (y = x) as <-; [|exact Hy]. apply Huniq; auto. apply A. apply HC. exact Hy.
      + right. split; [exact Hu|]. intros z Hz Ez. assert (existsb (fun z => (cmp z x =? 0)%Z) ins = true); [|congruence].
        apply existsb_exists. exists z. split; [exact Hz|apply Z.eqb_eq; exact Ez].
    - intros [H|[H H']]; [apply A, HC; exact H|].
      destruct (D x H) as (z & Hz & Ez). destruct (B z Hz) as [Hc|Hu].
      + exfalso. apply HC in Hc. apply first_of_in in Hc. exact (H' z Hc Ez).
      + assert (z = x) as <-; [|exact Hz]. exact (ssorted_unique cmp OK u z x Hsu Hu H Ez).
  Qed.

  Definition inv_holds (st : list (page row)) (ins : list row) : Prop :=
    exists G, TInv st 0 G /\ forall x, In x (contents st G) <-> first_of cmp ins x.
  Lemma inv_holds_tree st ins : inv_holds st ins -> tree_holds alt a cmpA st ins.
  Proof. intros (G & HI & H). exists (contents st G). split; [apply inv_tree_is; exact HI|exact H]. Qed.

  Definition inv_complete (st : list (page row)) (ins : list row) : Prop :=
    exists G, TInv st 0 G /\ complete st 0 G /\ forall x, In x (contents st G) <-> first_of cmp ins x.

  Lemma insert_step build batch st ins : inv_complete st ins -> valid_batch alt a cmpA batch ->
    exists tr, ptInsert alt a cmpA build st batch = Some (tr, false) /\ inv_complete (last tr st) (ins ++ batch) /\
      Forall (fun s => exists u v, batch = u ++ v /\ u <> [] /\ inv_holds s (ins ++ u)) tr.
  Proof.
    intros (G & HI & Hc & HR) Hb. destruct (insert_ok build batch st G HI Hb) as (tr & lost & done & todo & Hi & Ed & Hlo & Htr & G' & HI' & HR' & HC').
    destruct (HC' Hc) as [-> Hc']. specialize (Hlo eq_refl). subst todo. rewrite app_nil_r in Ed. subst done.
    exists tr. split; [exact Hi|]. destruct Hb as (Hsb & _). split.
    - exists G'. split; [exact HI'|]. split; [exact Hc'|]. eapply rows_ins_first; eauto. eapply (contents_sorted cmp OK); eauto.
    - eapply Forall_impl; [|exact Htr]. intros s (u & v & E & Hu & Gs & HIs & HRs). exists u, v. split; [exact E|]. split; [exact Hu|].
      exists Gs. split; [exact HIs|]. eapply rows_ins_first; eauto; [eapply (contents_sorted cmp OK); eauto|].
      rewrite E in Hsb. apply ssorted_app in Hsb as (H & _). exact H.
  Qed.

  Lemma create_complete rows : ssorted cmp rows -> Forall (storable alt a) rows -> fits_page alt a rows ->
    inv_complete (createPostingTree rows) rows.
  Proof.
    intros Hs Ho Hf. destruct (create_inv rows Hs Ho Hf) as (G & HI & Hc & E). exists G. split; [exact HI|]. split; [exact Hc|].
    intro x. rewrite E. apply first_of_sorted. exact Hs.
  Qed.

  Lemma run_step hist : forall st ins, inv_complete st ins -> Forall (fun h => valid_batch alt a cmpA (snd h)) hist ->
    exists st', ptRun alt a cmpA st hist = Some st' /\ inv_complete st' (ins ++ concat (map snd hist)).
  Proof.
    induction hist as [|[b batch] hist IH]; intros st ins HI Hv; cbn [ptRun map concat snd].
    - exists st. rewrite app_nil_r. auto.
    - apply Forall_cons_iff in Hv as [Hb Hv]. destruct (insert_step b batch st ins HI Hb) as (tr & Hi & HI' & _).
      rewrite Hi, app_assoc. apply IH; assumption.
  Qed.

  Lemma posting_tree_history rows hist : ssorted cmp rows -> Forall (storable alt a) rows -> fits_page alt a rows ->
    Forall (fun h => valid_batch alt a cmpA (snd h)) hist ->
    exists st, ptRun alt a cmpA (createPostingTree rows) hist = Some st /\
      tree_holds alt a cmpA st (rows ++ concat (map snd hist)).
  Proof.
    intros Hs Ho Hf Hv. destruct (run_step hist _ rows (create_complete rows Hs Ho Hf) Hv) as (st & Hr & G & HI & _ & H).
    exists st. split; [exact Hr|]. apply inv_holds_tree. exists G. auto.
  Qed.

  Lemma posting_tree_crash rows hist build batch : ssorted cmp rows -> Forall (storable alt a) rows -> fits_page alt a rows ->
    Forall (fun h => valid_batch alt a cmpA (snd h)) hist -> valid_batch alt a cmpA batch ->
    exists st tr, ptRun alt a cmpA (createPostingTree rows) hist = Some st /\
      ptInsert alt a cmpA build st batch = Some (tr, false) /\
      forall s, In s tr -> exists u v, batch = u ++ v /\ u <> [] /\
        tree_holds alt a cmpA s (rows ++ concat (map snd hist) ++ u).
  Proof.
    intros Hs Ho Hf Hv Hb. destruct (run_step hist _ rows (create_complete rows Hs Ho Hf) Hv) as (st & Hr & HI).
    destruct (insert_step build batch st _ HI Hb) as (tr & Hi & _ & Htr). exists st, tr. split; [exact Hr|]. split; [exact Hi|].
    rewrite Forall_forall in Htr. intros s Hin. destruct (Htr s Hin) as (u & v & E & Hu & H). exists u, v. split; [exact E|]. split; [exact Hu|].
    rewrite app_assoc. apply inv_holds_tree. exact H.
  Qed.

  Lemma posting_tree_crash_full rows hist build batch : ssorted cmp rows -> Forall (storable alt a) rows -> fits_page alt a rows ->
    Forall (fun h => valid_batch alt a cmpA (snd h)) hist -> valid_batch alt a cmpA batch ->
    exists st tr, ptRun alt a cmpA (createPostingTree rows) hist = Some st /\
      ptInsert alt a cmpA build st batch = Some (tr, false) /\
      tree_holds alt a cmpA st (rows ++ concat (map snd hist)) /\
      forall s, In s tr -> exists u v, batch = u ++ v /\ u <> [] /\
        tree_holds alt a cmpA s (rows ++ concat (map snd hist) ++ u).
  Proof.
    intros Hs Ho Hf Hv Hb. destruct (posting_tree_crash rows hist build batch Hs Ho Hf Hv Hb) as (st & tr & Hr & Hi & H).
    destruct (posting_tree_history rows hist Hs Ho Hf Hv) as (st' & Hr' & Hh). rewrite Hr in Hr'. injection Hr' as <-.
    exists st, tr. auto.
  Qed.
  Lemma posting_tree_crash1 rows hist build x : ssorted cmp rows -> Forall (storable alt a) rows -> fits_page alt a rows ->
    Forall (fun h => valid_batch alt a cmpA (snd h)) hist -> storable alt a x ->
    exists st tr, ptRun alt a cmpA (createPostingTree rows) hist = Some st /\
      ptInsert alt a cmpA build st [x] = Some (tr, false) /\
      tree_holds alt a cmpA st (rows ++ concat (map snd hist)) /\
      forall s, In s tr -> tree_holds alt a cmpA s (rows ++ concat (map snd hist) ++ [x]).
  Proof.
    intros Hs Ho Hf Hv Hx.
    destruct (posting_tree_crash_full rows hist build [x] Hs Ho Hf Hv) as (st & tr & Hr & Hi & Hh & H).
    { split; [repeat constructor|]. split; [constructor; [exact Hx|constructor]|]. left. simpl. lia. }
    exists st, tr. split; [exact Hr|]. split; [exact Hi|]. split; [exact Hh|]. intros s Hin.
    destruct (H s Hin) as (u & v & E & Hu & Ht). destruct u as [|u0 u]; [congruence|]. destruct u; [|destruct u; discriminate].
    injection E as <- <-. exact Ht.
  Qed.

  (** ** crashes and errors in the middle of a history *)
  Lemma reaches_inv st acked tried : reaches alt a cmpA st acked tried ->
    exists G, TInv st 0 G /\ (forall x, In x acked -> exists y, In y (contents st G) /\ cmp y x = 0%Z) /\
      (forall x, In x (contents st G) -> In x tried).
  Proof.
    induction 1 as [rows Hs Ho Hf|st acked tried build batch tr Hr (G & HI & Ha & Ht) Hb Hi|st acked tried build batch tr lost s Hr (G & HI & Ha & Ht) Hb Hi Hin].
    - destruct (create_inv rows Hs Ho Hf) as (G & HI & _ & E). exists G. rewrite E. split; [exact HI|]. split; [|auto].
      intros x Hx. exists x. split; [exact Hx|]. apply (tc_refl _ OK).
    - destruct (insert_ok build batch st G HI Hb) as (tr' & lost & done & todo & Hi' & Ed & Hlo & _ & G' & HI' & (A & B & D) & _).
      rewrite Hi in Hi'. injection Hi' as <- <-. specialize (Hlo eq_refl). subst todo. rewrite app_nil_r in Ed. subst done.
      exists G'. split; [exact HI'|]. split.
      + intros x Hx. apply in_app_iff in Hx as [Hx|Hx]; [|auto]. destruct (Ha x Hx) as (y & Hy & E). exists y. auto.
      + intros x Hx. apply in_app_iff. destruct (B x Hx); auto.
    - destruct (insert_ok build batch st G HI Hb) as (tr' & lost' & done & todo & Hi' & _ & _ & Htr & _).
      rewrite Hi in Hi'. injection Hi' as <- <-. rewrite Forall_forall in Htr.
      destruct (Htr s Hin) as (u & v & E & _ & Gs & HIs & A & B & D). exists Gs. split; [exact HIs|]. split.
      + intros x Hx. destruct (Ha x Hx) as (y & Hy & Ey). exists y. auto.
      + intros x Hx. apply in_app_iff. destruct (B x Hx) as [H|H]; [auto|]. right. rewrite E. apply in_app_iff. auto.
  Qed.

  Lemma reaches_tree st acked tried : reaches alt a cmpA st acked tried ->
    (exists rows, tree_is alt a cmpA st rows /\
      (forall x, In x acked -> exists y, In y rows /\ cmp y x = 0%Z) /\ (forall x, In x rows -> In x tried)) /\
    forall build batch, valid_batch alt a cmpA batch -> exists tr lost, ptInsert alt a cmpA build st batch = Some (tr, lost).
  Proof.
    intro Hr. destruct (reaches_inv st acked tried Hr) as (G & HI & Ha & Ht). split.
    - exists (contents st G). split; [apply inv_tree_is; exact HI|]. auto.
    - intros build batch Hb. destruct (insert_ok build batch st G HI Hb) as (tr & lost & _ & _ & H & _). eauto.
  Qed.
End Hist.

(** ** attached columns passed by value always satisfy the size bound *)
Lemma sz_off_bound : forall f k v, (v < 2 ^ (6 + 7 * N.of_nat k))%N -> (sz_off_loop f v <= N.of_nat k + 1)%N.
Proof.
  induction f as [|f IH]; intros k v H; cbn [sz_off_loop]; [lia|].
  destruct (N.ltb_spec v SEVENTHBIT) as [L|L]; [lia|]. unfold SEVENTHBIT in L.
  destruct k as [|k]; [change (2 ^ (6 + 7 * N.of_nat 0))%N with 64%N in H; lia|].
  rewrite NBits.shiftr_7. assert (v / 128 < 2 ^ (6 + 7 * N.of_nat k))%N.
  { apply N.div_lt_upper_bound; [lia|].
    replace (6 + 7 * N.of_nat (S k))%N with (7 + (6 + 7 * N.of_nat k))%N in H by lia.
    rewrite N.pow_add_r in H. exact H. }
  apply (IH k) in H0. lia.
Qed.
Lemma byval_small alt n x : row_ok alt (AByVal n) x -> storable alt (AByVal n) x.
Proof.
  intro Hr. split; [exact Hr|]. intros prev pos w Hp Hw.
  pose proof (item_size_eq alt (AByVal n) pos x prev w (proj1 Hr) Hw) as E.
  unfold rumCheckPlaceToDataPageLeaf in E.
  assert (H1 : (rumDataPageLeafGetItemPointerSize (ip x) prev <= 5 + 3)%N).
  { unfold rumDataPageLeafGetItemPointerSize. apply N.add_le_mono.
    - apply sz_block_bound. eapply N.lt_trans; [apply CodecProof.sub32_lt|]. reflexivity.
    - apply (sz_off_bound _ 2). destruct Hr as [((_ & Ho) & _) _]. eapply N.lt_trans; [exact Ho|]. reflexivity. }
  assert (H2 : match add x with Some d => n <= 8 | None => True end).
  { destruct Hr as [(_ & _ & Hd) _]. destruct (add x) as [d|]; [|exact I]. destruct d; cbn in Hd; try contradiction. lia. }
  destruct alt, (add x) as [d|]; cbn [rumComputeDatumSize] in E; try (destruct d); lia.
Qed.

(** ** witness: a half-split tree that refuses an insertion *)
Lemma var_small al pk p o bs : (legal_align al) -> (nlen bs <= 2400)%N -> (1 <= o)%N -> ip_ok (mkIp p o) ->
  storable false (AVar al pk) (mkItem (mkIp p o) (Some (DVar V4U bs))).
Proof.
  intros Hal Hl Ho Hip.
  assert (Hr : row_ok false (AVar al pk) (mkItem (mkIp p o) (Some (DVar V4U bs)))).
  { split; [|exact Ho]. split; [exact Hip|]. split; [discriminate|]. cbn. split; [exact Hal|]. change (2 ^ 30)%N with 1073741824%N. lia. }
  split; [exact Hr|]. intros prev pos w Hp Hw.
  pose proof (item_size_eq false (AVar al pk) pos _ prev w (proj1 Hr) Hw) as E.
  unfold rumCheckPlaceToDataPageLeaf in E. cbn [add ip] in E.
  assert (H1 : (rumDataPageLeafGetItemPointerSize (mkIp p o) prev <= 5 + 3)%N).
  { unfold rumDataPageLeafGetItemPointerSize. apply N.add_le_mono.
    - apply sz_block_bound. eapply N.lt_trans; [apply CodecProof.sub32_lt|]. reflexivity.
    - apply (sz_off_bound _ 2). cbn [off]. destruct Hip as [_ H]. cbn in H. eapply N.lt_trans; [exact H|]. reflexivity. }
  cbn [rumComputeDatumSize] in E. set (s := (pos + rumDataPageLeafGetItemPointerSize (mkIp p o) prev)%N) in *.
  assert (H2 : (align_to al s <= s + 8)%N).
  { pose proof (align_lt al s Hal). lia. }
  destruct (pk && can_make_short (DVar V4U bs)); cbn [varsize] in E; lia.
Qed.

Definition zcmp : datum -> datum -> Z := fun _ _ => 0%Z.
Definition bigrow (i : N) : row := mkItem (mkIp i 1) (Some (DVar V4U (repeat 0%N 2000))).
Definition big_attr : attr := AVar 4 true.
Definition singles (l : list N) : list (bool * list row) := map (fun i => (false, [bigrow i])) l.
(** the tree after six rows, and after the first of the two logged changes of the seventh insertion *)
Definition six : list (page row) :=
  match ptRun false big_attr zcmp (createPostingTree []) (singles [1; 2; 3; 4; 5; 6]%N) with Some st => st | None => [] end.
Definition half_split : list (page row) :=
  match ptInsert false big_attr zcmp false six [bigrow 7] with Some (s :: _, _) => s | _ => [] end.
Definition half_split9 : list (page row) :=
  match ptRun false big_attr zcmp half_split (singles [8; 9]%N) with Some st => st | None => [] end.

Lemma bigrow_storable i : (i < 2 ^ 32)%N -> storable false big_attr (bigrow i).
Proof. intro H. apply var_small; [unfold legal_align; lia|vm_compute; discriminate|lia|]. split; cbn; [exact H|lia]. Qed.
Lemma bigrow_valid i : (i < 2 ^ 32)%N -> valid_batch false big_attr zcmp [bigrow i].
Proof.
  intro H. split; [repeat constructor|]. split; [constructor; [apply bigrow_storable; exact H|constructor]|]. left. simpl. lia.
Qed.
Lemma reaches_run hist : forall st acked tried st', reaches false big_attr zcmp st acked tried ->
  Forall (fun h => valid_batch false big_attr zcmp (snd h)) hist -> ptRun false big_attr zcmp st hist = Some st' ->
  reaches false big_attr zcmp st' (acked ++ concat (map snd hist)) (tried ++ concat (map snd hist)).
Proof.
  induction hist as [|[b batch] hist IH]; intros st acked tried st' Hr Hv H; cbn [ptRun map concat snd] in *.
  - injection H as <-. rewrite !app_nil_r. exact Hr.
  - apply Forall_cons_iff in Hv as [Hb Hv]. destruct (ptInsert false big_attr zcmp b st batch) as [[tr [|]]|] eqn:E; try discriminate.
    rewrite !app_assoc. eapply IH; [|exact Hv|exact H]. eapply reaches_done; eauto.
Qed.
Lemma six_run : ptRun false big_attr zcmp (createPostingTree []) (singles [1; 2; 3; 4; 5; 6]%N) = Some six.
Proof.
  assert (H : match ptRun false big_attr zcmp (createPostingTree []) (singles [1; 2; 3; 4; 5; 6]%N) with Some _ => true | None => false end = true)
    by (vm_compute; reflexivity).
  unfold six. destruct (ptRun _ _ _ _ _); [reflexivity|discriminate].
Qed.
Lemma half_split_step : exists tr lost, ptInsert false big_attr zcmp false six [bigrow 7] = Some (half_split :: tr, lost).
Proof.
  assert (H : match ptInsert false big_attr zcmp false six [bigrow 7] with Some (_ :: _, _) => true | _ => false end = true)
    by (vm_compute; reflexivity).
  unfold half_split. destruct (ptInsert _ _ _ _ _ _) as [[[|s tr] lost]|]; try discriminate. eauto.
Qed.
Lemma half_split9_run : ptRun false big_attr zcmp half_split (singles [8; 9]%N) = Some half_split9.
Proof.
  assert (H : match ptRun false big_attr zcmp half_split (singles [8; 9]%N) with Some _ => true | None => false end = true)
    by (vm_compute; reflexivity).
  unfold half_split9. destruct (ptRun _ _ _ _ _); [reflexivity|discriminate].
Qed.
Lemma half_split_insert10 : exists tr, ptInsert false big_attr zcmp false half_split9 [bigrow 10] = Some (tr, true).
Proof.
  assert (H : match ptInsert false big_attr zcmp false half_split9 [bigrow 10] with Some (_, true) => true | _ => false end = true)
    by (vm_compute; reflexivity).
  destruct (ptInsert _ _ _ _ _ _) as [[tr [|]]|]; try discriminate. eauto.
Qed.
Lemma half_split_lost :
  reaches false big_attr zcmp half_split9 (map bigrow [1; 2; 3; 4; 5; 6; 8; 9]%N) (map bigrow [1; 2; 3; 4; 5; 6; 7; 8; 9]%N) /\
  valid_batch false big_attr zcmp [bigrow 10] /\
  exists tr, ptInsert false big_attr zcmp false half_split9 [bigrow 10] = Some (tr, true).
Proof.
  split; [|split; [apply bigrow_valid; reflexivity|exact half_split_insert10]].
  assert (Hv : forall l, Forall (fun i => (i < 2 ^ 32)%N) l -> Forall (fun h => valid_batch false big_attr zcmp (snd h)) (singles l)).
  { intros l Hl. unfold singles. rewrite Forall_map. eapply Forall_impl; [|exact Hl]. intros i Hi. apply bigrow_valid. exact Hi. }
  assert (H0 : reaches false big_attr zcmp (createPostingTree []) [] []).
  { apply reaches_new; [constructor|constructor|]. exists []. split; [reflexivity|vm_compute; discriminate]. }
  pose proof (reaches_run _ _ _ _ _ H0 (Hv [1; 2; 3; 4; 5; 6]%N ltac:(repeat constructor)) six_run) as H6.
  destruct half_split_step as (tr & lost & E).
  pose proof (reaches_cut _ _ _ _ _ _ _ _ _ _ _ H6 (bigrow_valid 7 eq_refl) E (or_introl eq_refl)) as H7.
  pose proof (reaches_run _ _ _ _ _ H7 (Hv [8; 9]%N ltac:(repeat constructor)) half_split9_run) as H9. exact H9.
Qed.

Lemma C12_example :
  config_ok false big_attr /\ total_cmp zcmp /\ safe_align big_attr /\
  reaches false big_attr zcmp half_split9 (map bigrow [1; 2; 3; 4; 5; 6; 8; 9]%N) (map bigrow [1; 2; 3; 4; 5; 6; 7; 8; 9]%N).
Proof.
  split; [|split; [|split]].
  - split; [cbn; unfold legal_align; lia|discriminate].
  - exact zero_total.
  - cbn. lia.
  - exact (proj1 half_split_lost).
Qed.
Lemma C11_example :
  Forall (fun h => valid_batch false big_attr zcmp (snd h)) (singles [3; 1; 5; 2; 6; 4; 3]%N) /\
  exists st, ptRun false big_attr zcmp (createPostingTree []) (singles [3; 1; 5; 2; 6; 4; 3]%N) = Some st /\
    option_map (map (fun r => blk (ip r))) (ptScan st) = Some [1; 2; 3; 4; 5; 6]%N /\ (length st > 2)%nat.
Proof.
  split.
  - unfold singles. rewrite Forall_map. repeat (apply Forall_cons; [apply bigrow_valid; reflexivity|]). apply Forall_nil.
  - assert (H : match ptRun false big_attr zcmp (createPostingTree []) (singles [3; 1; 5; 2; 6; 4; 3]%N) with
                | Some st => match option_map (map (fun r => blk (ip r))) (ptScan st) with
                             | Some l => andb (2 <? length st)%nat (if list_eq_dec N.eq_dec l [1; 2; 3; 4; 5; 6]%N then true else false) | None => false end
                | None => false end = true) by (vm_compute; reflexivity).
    destruct (ptRun _ _ _ _ _) as [st|]; [|discriminate]. exists st. split; [reflexivity|].
    destruct (option_map _ _) as [l|]; [|discriminate]. apply andb_true_iff in H as [H1 H2].
    destruct (list_eq_dec N.eq_dec l _) as [->|]; [|discriminate]. split; [reflexivity|]. apply Nat.ltb_lt in H1. lia.
Qed.
