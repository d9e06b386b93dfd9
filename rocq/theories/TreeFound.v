(** Proofs about what a scan finds for a query key: leaf pages of a posting tree, tuples of the entry
    tree from a key on. *)
From Coq Require Import NArith ZArith Lia List Permutation Sorted Bool Arith.
From Verif Require Import Base Ord OrdProof Codec CodecSpec LeafPage LeafSpec LeafCodec Entries EntriesSpec EntriesProof Bulk BulkSpec BTree BTreeInv BTreeFind PostingTree PostingTreeSpec PostingTreeProof EntryTree EntryTreeProof IndexSpec IndexProof ScanEntry ScanEntryProof Scan ScanSpec IndexScan VacScanSpec.
Import ListNotations.

Section PTree.
  Variables (alt : bool) (a : attr) (cmpA : datum -> datum -> Z).
  Hypothesis HA : total_cmp cmpA.
  Notation cmp := (compareRumItem alt cmpA).
  Let OK : total_cmp cmp := cri_total alt cmpA HA.
  (** [tight]: no page was emptied by vacuum. *)
  Variable tight : bool.
  Notation TInv := (Inv cmp pt_ifit false (pt_ok alt a) (fits_page alt a) tight).

  Lemma blocks_spec st G fuel : TInv st 0 G -> forall L1 b L2, nth_error (lv G) 0 = Some (L1 ++ b :: L2) -> length L2 < fuel ->
    leafBlocks fuel st b = Some (b :: L2).
  Proof.
    intro HI. induction fuel as [|f IH]; intros L1 b L2 HL Hf; [lia|].
    assert (Hat : at_ G 0 b) by (eexists; split; [exact HL|apply in_app_iff; right; left; reflexivity]).
    destruct (BTreeFind.page_get cmp _ _ _ _ _ _ _ _ HI _ _ Hat) as [pg Hg]. cbn [leafBlocks]. unfold row in *. rewrite Hg.
    destruct (BTreeFind.page_facts cmp _ _ _ _ _ _ _ _ HI _ _ _ Hat Hg) as (Hleaf & Hdel & _). rewrite Hleaf, Hdel. cbn [Nat.eqb negb orb].
    pose proof (I_links _ _ _ _ _ _ _ _ _ HI _ _ HL) as Hl. apply links_at in Hl as (pg' & Hg' & Hr' & _).
    rewrite Hg in Hg'. injection Hg' as <-. rewrite Hr'. destruct L2 as [|r L2]; cbn [hd_error]; [reflexivity|].
    rewrite (IH (L1 ++ [b]) r L2); [reflexivity|rewrite <- app_assoc; exact HL|simpl in Hf; lia].
  Qed.
  Lemma position_at b L1 L2 : ~ In b L1 -> position b (L1 ++ b :: L2) = length L1.
  Proof.
    induction L1 as [|c L1 IH]; intro H; cbn [app position length].
    - rewrite Nat.eqb_refl. reflexivity.
    - destruct (Nat.eqb_spec b c) as [->|]; [exfalso; apply H; left; reflexivity|]. rewrite IH; [reflexivity|]. intro; apply H; right; auto.
  Qed.

  Lemma leaf_items_at st b : lf_items (leafOf st b) = items_at st b.
  Proof. unfold leafOf, items_at. destruct (get st b); reflexivity. Qed.

  (** What the scan of a posting tree meets, empty pages or not. *)
  Theorem treeFound_gen st G junk : TInv st 0 G ->
    exists b0 L0 refind, nth_error (lv G) 0 = Some (b0 :: L0) /\
      let chain := map (leafOf st) (b0 :: L0) in
      treeFound cmpA junk alt st = Some (FTree chain junk, refind) /\
      flat_map lf_items chain = contents st G /\
      (lf_items (leafOf st b0) <> [] \/ harmless junk (map (leafOf st) L0) -> found_ok cmp (FTree chain junk) refind).
  Proof.
    intros HI. unfold treeFound, row in *.
    destruct (leftmost_spec cmp OK _ _ _ _ _ _ _ _ HI (S (length st)) (top G) 0 []) as (b0 & L0 & HL & Hl).
    - apply (top_root _ _ _ _ _ _ _ _ _ HI).
    - pose proof (levels_le cmp _ _ _ _ _ _ _ _ HI). unfold top. lia.
    - rewrite Hl. rewrite (blocks_spec st G (S (length st)) HI [] b0 L0 HL).
      2: { pose proof (concat_bound _ _ _ _ _ _ _ _ _ HI) as Hb. clear - HL Hb.
           destruct (lv G) as [|L l]; [discriminate|]. simpl in HL. injection HL as ->. simpl in Hb. rewrite app_length in Hb. lia. }
      assert (Hc : contents st G = flat_map (items_at st) (b0 :: L0)).
      { unfold contents. destruct (lv G) as [|L l]; [discriminate|]. simpl in HL. injection HL as ->. reflexivity. }
      assert (Hitems : forall L, flat_map lf_items (map (leafOf st) L) = flat_map (items_at st) L).
      { induction L as [|b L IH]; [reflexivity|]. cbn [map flat_map]. rewrite leaf_items_at, IH. reflexivity. }
      assert (Hat : forall b, In b (b0 :: L0) -> at_ G 0 b) by (intros b Hb; exists (b0 :: L0); auto).
      exists b0, L0. eexists. split; [exact HL|]. cbv zeta. split; [reflexivity|]. split; [rewrite Hc; apply Hitems|].
      intro Hfirst. split; [|split].
      + exists (leafOf st b0), (map (leafOf st) L0). split; [reflexivity|exact Hfirst].
      + intros pg1 pg pg2 rest y E Hy.
        symmetry in E. change (leafOf st b0 :: map (leafOf st) L0) with (map (leafOf st) (b0 :: L0)) in E. 
        assert (exists L1 b c L2, b0 :: L0 = L1 ++ b :: c :: L2 /\ pg = leafOf st b) as (L1 & b & c & L2 & E' & ->).
        { symmetry in E. apply map_eq_app in E as (L1 & L2 & E1 & _ & E2). apply map_eq_cons in E2 as (b & L3 & -> & <- & E3).
          apply map_eq_cons in E3 as (c & L4 & -> & _ & _). exists L1, b, c, L4. auto. }
        assert (Hb : at_ G 0 b) by (apply Hat; rewrite E'; apply in_app_iff; right; left; reflexivity).
        destruct (BTreeFind.page_get cmp _ _ _ _ _ _ _ _ HI _ _ Hb) as [pgb Hg]. rewrite leaf_items_at in Hy. unfold items_at, row in Hy. rewrite Hg in Hy.
        unfold leafOf, row. rewrite Hg. cbn [lf_bound]. rewrite E' in HL.
        pose proof (I_links _ _ _ _ _ _ _ _ _ HI _ _ HL) as Hl'. apply links_at in Hl' as (pg' & Hg' & Hr' & _).
        rewrite Hg in Hg'. injection Hg' as <-. cbn in Hr'.
        destruct (BTreeFind.page_facts cmp _ _ _ _ _ _ _ _ HI _ _ _ Hb Hg) as (_ & _ & _ & _ & _ & Hbd). unfold body, leaf_body in Hbd.
        destruct Hbd as (Ehi & _ & _ & _ & _ & Hin & _). destruct (Hin y Hy) as [_ Hle]. rewrite Ehi in Hle. unfold hi_of in Hle. rewrite Hr' in Hle.
        apply bat_le in Hle. exact Hle.
      + intro x.
        destruct (findLeaf_root cmp OK pt_ifit false (pt_ok alt a) (fits_page alt a) (@p_bound row) (pt_locate alt cmpA)
          (p_bound_ok cmp OK _ _ _ _) (dataLocate_ok cmp OK false) tight st 0 G HI x) as (b & stack & Hf & Hb & Hr & _).
        unfold row in *. rewrite Hf. destruct Hb as (L' & HL' & Hin). rewrite HL in HL'. injection HL' as <-.
        apply in_split in Hin as (L1 & L2 & E). rewrite E.
        pose proof (level_nodup cmp _ _ _ _ _ _ _ _ HI _ _ HL) as Hnd. rewrite E in Hnd. apply NoDup_remove_2 in Hnd.
        rewrite position_at by (intro; apply Hnd; apply in_app_iff; auto).
        rewrite map_app.
        split; [rewrite app_length, !map_length; cbn; lia|].
        intros y Hy. replace (length L1) with (length (map (leafOf st) L1)) in Hy by apply map_length. rewrite firstn_len in Hy.
        rewrite Hitems in Hy. apply in_flat_map in Hy as (b' & Hb' & Hy).
        assert (Hat' : at_ G 0 b') by (apply Hat; rewrite E; apply in_app_iff; auto).
        destruct (BTreeFind.page_get cmp _ _ _ _ _ _ _ _ HI _ _ Hat') as [pg' Hg']. unfold items_at, row in Hy. rewrite Hg' in Hy.
        destruct (BTreeFind.leaf_items cmp _ _ _ _ _ _ _ _ HI _ _ Hat' Hg') as (_ & _ & Hrg). destruct (Hrg y Hy) as [_ Hy1].
        destruct Hr as [Hx _]. cut (blt cmp (BAt y) (BAt x)); [intro Hc'; exact Hc'|]. eapply ble_lt_trans; [exact OK|exact Hy1|]. eapply ble_lt_trans; [exact OK| |exact Hx].
        apply in_split in Hb' as (M1 & M2 & ->). rewrite E in HL. rewrite <- app_assoc in HL.
        eapply (level_order cmp OK _ _ _ _ _ _ _ _ HI 0 M1 b' (M2 ++ b :: L2)); [exact HL|apply in_app_iff; right; left; reflexivity].
  Qed.
End PTree.

Section Junk.
  Variables (alt : bool) (a : attr) (cmpA : datum -> datum -> Z).
  Hypothesis HA : total_cmp cmpA.
  Notation cmp := (compareRumItem alt cmpA).
  Let OK : total_cmp cmp := cri_total alt cmpA HA.
  Section Any.
  Variable tight : bool.
  Notation TInv := (Inv cmp pt_ifit false (pt_ok alt a) (fits_page alt a) tight).

  Lemma leftmost_first st G b0 L0 : TInv st 0 G -> nth_error (lv G) 0 = Some (b0 :: L0) -> leftmostLeaf (S (length st)) st 0 = Some b0.
  Proof.
    intros HI HL. destruct (leftmost_spec cmp OK _ _ _ _ _ _ _ _ HI (S (length st)) (top G) 0 []) as (b1 & L1 & HL1 & Hl).
    { apply (top_root _ _ _ _ _ _ _ _ _ HI). }
    { pose proof (levels_le cmp _ _ _ _ _ _ _ _ HI) as LE. unfold top, row in *. lia. }
    assert (EE : b1 :: L1 = b0 :: L0) by (assert (Q : Some (b1 :: L1) = Some (b0 :: L0)) by (rewrite <- HL1; exact HL); injection Q as -> ->; reflexivity).
    injection EE as -> ->. exact Hl.
  Qed.
  (** empty pages, harmless memory *)
  Theorem treeFound_junk st G junk : TInv st 0 G -> junk_ok st junk ->
    exists chain refind, treeFound cmpA junk alt st = Some (FTree chain junk, refind) /\
      flat_map lf_items chain = contents st G /\ found_ok cmp (FTree chain junk) refind.
  Proof.
    intros HI HJ. destruct (treeFound_gen alt a cmpA HA tight st G junk HI) as (b0 & L0 & refind & HL & Hf & Hc & Hok). cbv zeta in *.
    eexists _, _. split; [exact Hf|]. split; [exact Hc|].
    pose proof (scan_spec cmp OK _ _ _ _ _ _ _ _ HI) as Hscan.
    apply Hok. rewrite leaf_items_at.
    assert (Hat0 : at_ G 0 b0) by (exists (b0 :: L0); split; [exact HL|left; reflexivity]).
    destruct (BTreeFind.page_get cmp _ _ _ _ _ _ _ _ HI _ _ Hat0) as [pg Hg].
    destruct (items_at st b0) as [|x l] eqn:Ei; [|left; intro E0; unfold row in *; congruence]. right.
    unfold items_at, row in Ei. unfold row in Hg. rewrite Hg in Ei. pose proof (leftmost_first st G b0 L0 HI HL) as Hl.
    destruct (HJ b0 pg Hl Hg Ei) as [[H1 H2]|[H1 H2]]; [left|right]; (split; [exact H1|]).
    - intros y Hy. apply (H2 _ Hscan). rewrite <- Hc. cbn [map flat_map]. apply in_app_iff. right. exact Hy.
    - destruct L0 as [|c L0]; [left; reflexivity|right]. exists (leafOf st c), (map (leafOf st) L0). split; [reflexivity|].
      pose proof (I_links _ _ _ _ _ _ _ _ _ HI _ _ HL) as Hlk. pose proof (links_at _ None [] b0 (c :: L0) Hlk) as (pg' & Hg' & Hr' & _).
      unfold row in *. rewrite Hg in Hg'. injection Hg' as <-. cbn [hd_error] in Hr'.
      assert (Hatc : at_ G 0 c) by (exists (b0 :: c :: L0); split; [exact HL|right; left; reflexivity]).
      destruct (BTreeFind.page_get cmp _ _ _ _ _ _ _ _ HI _ _ Hatc) as [pgc Hgc].
      rewrite leaf_items_at. unfold items_at, row. unfold row in Hgc. rewrite Hgc. exact (H2 c pgc Hr' Hgc).
  Qed.
  End Any.
  Notation TInv := (Inv cmp pt_ifit false (pt_ok alt a) (fits_page alt a) true).
  (** no vacuum, no empty page *)
  Lemma tight_junk st G junk : TInv st 0 G -> contents st G <> [] -> junk_ok st junk.
  Proof.
    intros HI Hne b pg Hl Hg Ei. exfalso.
    destruct (treeFound_gen alt a cmpA HA true st G junk HI) as (b0 & L0 & refind & HL & _).
    pose proof (leftmost_first true st G b0 L0 HI HL) as Hl'. unfold row in *; rewrite Hl in Hl'. injection Hl' as ->.
    assert (Hc' : contents st G = flat_map (items_at st) (b0 :: L0)).
    { unfold contents. destruct (lv G) as [|L l]; [discriminate|]. simpl in HL. injection HL as ->. reflexivity. }
    assert (Hat0 : at_ G 0 b0) by (exists (b0 :: L0); split; [exact HL|left; reflexivity]).
    destruct (BTreeFind.page_facts cmp _ _ _ _ _ _ _ _ HI _ _ _ Hat0 Hg) as (_ & _ & Hlt & _ & _ & Hb).
    unfold body, leaf_body in Hb. destruct Hb as (Ehi & _ & _ & _ & _ & _ & Ht).
    destruct (p_right pg) as [r|] eqn:Er.
    - destruct (Ht (or_introl eq_refl) ltac:(discriminate) (p_bound pg)) as (y & Hy & _).
      { rewrite Ehi in *. unfold hi_of in *. rewrite Er in *. split; [exact Hlt|]. apply ble_refl. exact OK. }
      rewrite Ei in Hy. destruct Hy.
    - pose proof (I_links _ _ _ _ _ _ _ _ _ HI _ _ HL) as Hl'. pose proof (links_at _ None [] b0 L0 Hl') as (pg' & Hg' & Hr' & _).
      unfold get, row in *. rewrite Hg in Hg'. injection Hg' as <-. rewrite Er in Hr'. destruct L0; [|discriminate].
      apply Hne. rewrite Hc'. cbn [flat_map]. unfold items_at, get, row. rewrite Hg, Ei. reflexivity.
  Qed.
End Junk.


Section Tuples.
  Context {K : Type}.
  Variable compareFn : N -> K -> K -> Z.
  Variable altOf : N -> bool.
  Variable attrOf : N -> attr.
  Variable rawSize : ekey K -> N.
  Hypothesis HK : forall n, total_cmp (compareFn n).
  Notation kcmp := (rumCompareAttEntries compareFn).
  Notation etup := (etup K).
  Notation cmp := (ecmp compareFn).
  Let OK : total_cmp cmp := ecmp_total compareFn HK.
  Let KOK : total_cmp kcmp := att_total compareFn HK.
  Notation EInv := (Inv cmp (et_ifit rawSize) true (et_ok altOf attrOf rawSize) (et_fit altOf attrOf rawSize) true).

  (** the tuples from a key on *)
  Lemma tuplesFrom_spec ix G k : EInv (i_entry ix) 0 G ->
    exists pre suf, contents (i_entry ix) G = pre ++ suf /\ tuplesFrom compareFn ix k = Some suf /\
      (forall t, In t pre -> (kcmp (t_key t) k < 0)%Z) /\ (forall t, In t suf -> (kcmp k (t_key t) <= 0)%Z).
  Proof.
    intro HI. unfold tuplesFrom. set (x := mkTup k (PList [])). set (st := i_entry ix) in *.
    destruct (eFindLeaf_spec compareFn altOf attrOf rawSize HK st G x HI) as (b & stack & pg & Hfl & Hat & Hg & Hx & _).
    rewrite Hfl, Hg.
    destruct (BTreeFind.leaf_items cmp _ _ _ _ _ _ _ _ HI b pg Hat Hg) as (Hs & _ & Hrg).
    destruct Hat as (L & HL & Hin). pose proof Hin as Hin'. apply in_split in Hin as (L1 & L2 & ->).
    assert (Hat : forall c, In c (L1 ++ b :: L2) -> at_ G 0 c) by (intros c Hc; exists (L1 ++ b :: L2); auto).
    assert (Hc : contents st G = flat_map (items_at st) L1 ++ p_items pg ++ flat_map (items_at st) L2).
    { unfold contents. destruct (lv G) as [|L l]; [discriminate|]. simpl in HL. injection HL as ->. rewrite flat_map_app. cbn [flat_map].
      unfold items_at at 2. rewrite Hg. reflexivity. }
    assert (Hlow : forall t, In t (flat_map (items_at st) L1) -> (cmp t x < 0)%Z).
    { intros t Ht. apply in_flat_map in Ht as (c & Hc1 & Ht).
      assert (Hatc : at_ G 0 c) by (apply Hat; apply in_app_iff; auto). destruct (BTreeFind.page_get cmp _ _ _ _ _ _ _ _ HI _ _ Hatc) as [pc Hgc].
      unfold items_at in Ht. rewrite Hgc in Ht. destruct (BTreeFind.leaf_items cmp _ _ _ _ _ _ _ _ HI _ _ Hatc Hgc) as (_ & _ & Hr). destruct (Hr t Ht) as [_ H1].
      destruct Hx as [H2 _]. cut (blt cmp (BAt t) (BAt x)); [intro H; exact H|]. eapply ble_lt_trans; [exact OK|exact H1|]. eapply ble_lt_trans; [exact OK| |exact H2].
      apply in_split in Hc1 as (M1 & M2 & ->). rewrite <- app_assoc in HL.
      eapply (level_order cmp OK _ _ _ _ _ _ _ _ HI 0 M1 c (M2 ++ b :: L2)); [exact HL|apply in_app_iff; right; left; reflexivity]. }
    assert (Hhigh : forall t, In t (flat_map (items_at st) L2) -> (cmp x t < 0)%Z).
    { intros t Ht. apply in_flat_map in Ht as (c & Hc1 & Ht).
      assert (Hatc : at_ G 0 c) by (apply Hat; apply in_app_iff; right; right; exact Hc1). destruct (BTreeFind.page_get cmp _ _ _ _ _ _ _ _ HI _ _ Hatc) as [pc Hgc].
      unfold items_at in Ht. rewrite Hgc in Ht. destruct (BTreeFind.leaf_items cmp _ _ _ _ _ _ _ _ HI _ _ Hatc Hgc) as (_ & _ & Hr). destruct (Hr t Ht) as [H1 _].
      destruct Hx as [_ H2]. cut (blt cmp (BAt x) (BAt t)); [intro H; exact H|]. eapply ble_lt_trans; [exact OK|exact H2|]. eapply ble_lt_trans; [exact OK| |exact H1].
      eapply (level_order cmp OK _ _ _ _ _ _ _ _ HI 0 L1 b L2); [exact HL|exact Hc1]. }
    pose proof (entryLeaf_pos cmp OK (p_items pg) x Hs) as Hp. fold (et_find compareFn (p_items pg) x) in Hp.
    destruct (et_find compareFn (p_items pg) x) as [fnd off].
    assert (exists l1 l2, p_items pg = l1 ++ l2 /\ off = S (length l1) /\ (forall y, In y l1 -> (cmp y x < 0)%Z) /\ (forall y, In y l2 -> (cmp x y <= 0)%Z)) as (l1 & l2 & El & Eo & H1 & H2).
    { destruct fnd; cbn [leaf_pos] in Hp.
      - destruct Hp as (l1 & y & l2 & El & Eo & Ey). exists l1, (y :: l2). split; [exact El|]. split; [exact Eo|]. rewrite El in Hs.
        apply ssorted_app in Hs as (_ & Hs2 & Hs3). apply ssorted_inv in Hs2 as [_ Hs2]. rewrite Forall_forall in Hs2. split.
        + intros z Hz. eapply (cmp_lt_le_trans _ OK); [apply (Hs3 z y Hz); left; reflexivity|lia].
        + intros z [<-|Hz]; [apply (cmp_sym_eq _ OK) in Ey; lia|]. apply (cmp_sym_eq _ OK) in Ey. specialize (Hs2 z Hz).
          assert (cmp x z < 0)%Z by (eapply (cmp_le_lt_trans _ OK); [|exact Hs2]; lia). lia.
      - destruct Hp as (l1 & l2 & El & Eo & H1 & H2). exists l1, l2. split; [exact El|]. split; [exact Eo|]. split; [exact H1|]. intros y Hy. specialize (H2 y Hy). lia. }
    subst off. replace (S (length l1) - 1) with (length l1) by lia. rewrite El, skipn_len.
    exists (flat_map (items_at st) L1 ++ l1), (l2 ++ flat_map (items_at st) L2). split; [rewrite Hc, El, <- !app_assoc; reflexivity|]. split; [|split].
    - pose proof (I_links _ _ _ _ _ _ _ _ _ HI _ _ HL) as Hl. apply links_at in Hl as (pg' & Hg' & Hr' & _).
      rewrite Hg in Hg'. injection Hg' as <-. rewrite Hr'. destruct L2 as [|r L2]; cbn [hd_error]; [rewrite app_nil_r; reflexivity|].
      rewrite (walk_spec cmp _ _ _ _ _ _ _ _ HI (S (length st)) (L1 ++ [b]) r L2); [reflexivity|rewrite <- app_assoc; exact HL|].
      pose proof (concat_bound _ _ _ _ _ _ _ _ _ HI) as Hb. clear - HL Hb. destruct (lv G) as [|L l]; [discriminate|].
      simpl in HL. injection HL as ->. simpl in Hb. rewrite !app_length in Hb. cbn in Hb. lia.
    - intros t Ht. apply in_app_iff in Ht as [Ht|Ht]; [apply (Hlow t Ht)|apply (H1 t Ht)].
    - intros t Ht. apply in_app_iff in Ht as [Ht|Ht]; [apply (H2 t Ht)|specialize (Hhigh t Ht); unfold ecmp in Hhigh; cbn in Hhigh; lia].
  Qed.
End Tuples.
