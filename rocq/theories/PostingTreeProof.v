(** The posting tree instance meets what the generic tree proofs ask for. *)
From Verif Require Import Base Ord OrdProof Codec CodecSpec CodecProof LeafPage LeafProof LeafSpec LeafCodec LeafCodecProof PropCodecProof
  BTree BTreeInv BTreeFind BTreeParent BTreeSplit BTreeRoot BTreeIns PostingTree.
From Coq Require Import NArith ZArith Lia List Bool Arith ZifyBool ZifyNat ZifyN.
Import ListNotations.
Ltac Zify.zify_post_hook ::= Z.div_mod_to_equations.

(** ** dataLocateItem *)
Section Locate.
  Context {T : Type} (cmp : T -> T -> Z) (OK : total_cmp cmp).

  (** no order needed on the keys: what the search has compared on its way is enough *)
  Lemma locate_loop_any d x : forall fuel low high, high - low < fuel -> 1 <= low -> low <= high -> high <= length d + 1 ->
    (low = 1 \/ exists k c, nth_error d (low - 2) = Some (k, c) /\ (cmp k x < 0)%Z) ->
    (low <= length d) ->
    let o := locate_loop cmp fuel d x low high in
    1 <= o <= length d /\
    (o = 1 \/ (exists k c, nth_error d (o - 2) = Some (k, c) /\ 2 <= o /\ (cmp k x < 0)%Z)
     \/ (exists k c, nth_error d (o - 1) = Some (k, c) /\ cmp k x = 0%Z /\ o < length d)).
  Proof.
    induction fuel as [|f IH]; intros low high Hf Hl Hlh Hh Hlow Hmax; [lia|].
    cbn [locate_loop]. destruct (Nat.ltb_spec low high) as [L|L].
    - set (mid := low + (high - low) / 2). assert (Hm : low <= mid < high) by (unfold mid; lia).
      destruct (Nat.eqb_spec mid (length d)) as [Em|Em].
      + cbn [Z.eqb Z.ltb Z.compare]. apply IH; auto; lia.
      + destruct (nth_error d (mid - 1)) as [[k c]|] eqn:En.
        2: { apply nth_error_None in En. lia. }
        destruct (Z.eqb_spec (cmp x k) 0) as [E0|E0].
        { split; [lia|]. right; right. exists k, c. split; [exact En|]. split; [apply (cmp_sym_eq _ OK); exact E0|lia]. }
        destruct (Z.ltb_spec 0 (cmp x k)) as [E1|E1].
        * apply IH; try lia. right. exists k, c. replace (mid + 1 - 2) with (mid - 1) by lia. split; [exact En|].
          apply (cmp_gt_lt _ OK). exact E1.
        * apply IH; auto; lia.
    - assert (high = low) by lia. subst high. split; [lia|].
      destruct Hlow as [->|(k & c & En & Hk)]; [left; reflexivity|].
      destruct (Nat.eq_dec low 1) as [->|]; [left; reflexivity|]. right; left. exists k, c. repeat split; auto. lia.
  Qed.
  Lemma dataLocate_ok lbound : locate_ok cmp lbound (fun _ d x => dataLocateItem cmp d x).
  Proof.
    intros rm d x Hne _ o. assert (1 <= length d) by (destruct d; [congruence|simpl; lia]).
    destruct (locate_loop_any d x (S (length d)) 1 (length d + 1)) as (H1 & H2); try lia.
    fold (dataLocateItem cmp d x) in H1, H2. fold o in H1, H2. split; [exact H1|].
    destruct H2 as [H2|[H2|(k & c & A & B & C)]]; [auto|auto|]. right; right. exists k, c. auto.
  Qed.

  (** on ascending keys: the first downlink whose key is not below [x], or the last *)
  Lemma locate_sorted ds lst x : ssorted cmp (map fst ds) ->
    let d := ds ++ [lst] in let o := dataLocateItem cmp d x in
    1 <= o <= length d /\
    (forall i k c, i < o - 1 -> nth_error d i = Some (k, c) -> (cmp k x < 0)%Z) /\
    (o < length d -> exists k c, nth_error d (o - 1) = Some (k, c) /\ (cmp x k <= 0)%Z).
  Proof.
    intros Hs d. assert (Hd : length d = S (length ds)) by (unfold d; rewrite app_length; simpl; lia).
    assert (Hasc : forall i j k c k' c', i < j -> j < length ds -> nth_error d i = Some (k, c) -> nth_error d j = Some (k', c') -> (cmp k k' < 0)%Z).
    { intros i j k c k' c' Hij Hjl Hi Hj. unfold d in Hi, Hj. rewrite nth_error_app1 in Hi, Hj by lia. apply nth_error_split in Hi as (d1 & d2 & E & El).
      rewrite E in Hj, Hs. rewrite map_app in Hs. simpl in Hs. apply ssorted_app in Hs as (_ & Hs & _).
      apply ssorted_inv in Hs as [_ Hs]. rewrite nth_error_app2 in Hj by lia.
      destruct (j - length d1) as [|m] eqn:Em; [lia|]. simpl in Hj. rewrite Forall_forall in Hs. apply Hs.
      apply in_map_iff. exists (k', c'). split; [reflexivity|]. eapply nth_error_In; eauto. }
    assert (K : forall fuel low high, high - low < fuel -> 1 <= low -> low <= high -> high <= length d + 1 -> low <= length d ->
      (forall i k c, i < low - 1 -> nth_error d i = Some (k, c) -> (cmp k x < 0)%Z) ->
      (high < length d -> exists k c, nth_error d (high - 1) = Some (k, c) /\ (cmp x k <= 0)%Z) ->
      let o := locate_loop cmp fuel d x low high in
      1 <= o <= length d /\
      (forall i k c, i < o - 1 -> nth_error d i = Some (k, c) -> (cmp k x < 0)%Z) /\
      (o < length d -> exists k c, nth_error d (o - 1) = Some (k, c) /\ (cmp x k <= 0)%Z)).
    { induction fuel as [|f IH]; intros low high Hf Hl Hlh Hh Hmax Hlow Hhi; [lia|].
      cbn [locate_loop]. destruct (Nat.ltb_spec low high) as [L|L].
      - set (mid := low + (high - low) / 2). assert (Hm : low <= mid < high) by (unfold mid; lia).
        destruct (Nat.eqb_spec mid (length d)) as [Em|Em].
        + cbn [Z.eqb Z.ltb Z.compare]. apply IH; auto; lia.
        + destruct (nth_error d (mid - 1)) as [[k c]|] eqn:En.
          2: { apply nth_error_None in En. lia. }
          assert (Hpre : (0 <= cmp x k)%Z -> forall i k0 c0, i < mid - 1 -> nth_error d i = Some (k0, c0) -> (cmp k0 x < 0)%Z).
          { intros E0 i k0 c0 Hi Hn. assert (cmp k0 k < 0)%Z by (apply (Hasc i (mid - 1) k0 c0 k c); auto; lia).
            apply (cmp_lt_le_trans _ OK _ k); [assumption|]. apply (cmp_ge_le _ OK). exact E0. }
          destruct (Z.eqb_spec (cmp x k) 0) as [E0|E0].
          { split; [lia|]. split; [apply Hpre; lia|]. intros _. exists k, c. split; [exact En|lia]. }
          destruct (Z.ltb_spec 0 (cmp x k)) as [E1|E1].
          * apply IH; try lia; auto. intros i k0 c0 Hi Hn. destruct (Nat.eq_dec i (mid - 1)) as [->|].
            -- rewrite En in Hn. injection Hn as <- <-. apply (cmp_gt_lt _ OK). exact E1.
            -- apply (Hpre ltac:(lia) i k0 c0); [lia|exact Hn].
          * apply IH; auto; try lia. intros _. exists k, c. split; [exact En|lia].
      - assert (high = low) by lia. subst high. split; [lia|]. split; auto. }
    apply K; try lia.
  Qed.
End Locate.

Section Inst.
  Variables (alt : bool) (a : attr) (cmpA : datum -> datum -> Z) (build : bool).
  Hypothesis Hcfg : config_ok alt a.
  Hypothesis HA : total_cmp cmpA.
  Notation cmp := (compareRumItem alt cmpA).
  Let OK : total_cmp cmp := cri_total alt cmpA HA.

  (** the largest row for which page splits are proved safe *)
  Definition row_limit : N := 2445.
  Definition pt_ok (x : row) : Prop := row_ok alt a x /\ takes_at_most alt a row_limit x.
  Definition pt_ifit (d : list (row * nat)) : Prop := length d <= internalCapacity.

  Lemma limit3 : (3 * row_limit + 32 <= RumDataPageSize)%N.
  Proof. unfold row_limit, RumDataPageSize. lia. Qed.

  Lemma rows_of l : Forall pt_ok l -> Forall (row_ok alt a) l.
  Proof. intro H. eapply Forall_impl; [|exact H]. intros x [H1 _]; exact H1. Qed.

  Lemma pt_find_ok : leafFind_ok cmp pt_ok (findOnPage alt cmpA).
  Proof.
    intros items x Hs Ho Hx. pose proof (leaf_lookup alt cmpA items x HA Hs) as H.
    specialize (H (row_gt_min alt a cmpA x (proj1 Hx))). destruct (findOnPage alt cmpA items x) as [f o]. cbn [fst]. apply H.
  Qed.

  Lemma pt_ienough_ok : ienough_ok pt_ifit (fun _ => True) pt_ienough.
  Proof.
    intros d1 k0 c d2 k r _ Hf He. unfold pt_ienough, pt_ifit, placed in *. apply Nat.ltb_lt in He.
    rewrite app_length in *. simpl in *. lia.
  Qed.
  Lemma pt_isep_ok : isep_ok pt_ifit (fun _ => True) pt_ienough (pt_isep build).
  Proof.
    intros rm d1 k0 c d2 k r _ Hf He d. unfold pt_ienough, pt_ifit in *. apply Nat.ltb_ge in He.
    assert (Hl : length d = 340).
    { unfold d, placed. rewrite app_length in *. simpl in *. unfold internalCapacity in *. lia. }
    assert (Hs : pt_isep build rm d = 339 \/ pt_isep build rm d = 170).
    { unfold pt_isep. destruct (build && rm); [left; reflexivity|right]. rewrite Hl. reflexivity. }
    rewrite firstn_length, skipn_length, Hl. unfold internalCapacity. destruct Hs as [-> | ->]; lia.
  Qed.
  Lemma pt_iroot_ok : @iroot_ok row pt_ifit (fun _ => True).
  Proof. intros k l k' r _ _. unfold pt_ifit. simpl. unfold internalCapacity. lia. Qed.

  Lemma pt_kok_ok : kok_ok pt_ifit pt_ok (fun _ => True) pt_rkey.
  Proof. repeat split. Qed.

  (** single rows: the alignment classes of C08_single_fits; batches: no alignment *)
  Variable multi : bool.
  Hypothesis Hsafe : safe_align a.
  Hypothesis Hmulti : multi = true -> attr_align a = 1%N.

  Lemma single_case tl : (multi = true \/ tl = @nil row) -> attr_align a = 1%N \/ tl = [].
  Proof using Hmulti. intros [H|H]; auto. Qed.

  Lemma nonempty_page items x : Forall pt_ok items -> pt_ok x ->
    pt_leafEnough alt a items x = false -> items <> [].
  Proof.
    clear Hmulti Hsafe. intros _ [Hx Ht] He ->. unfold pt_leafEnough, dataIsEnoughSpaceLeaf, freeOnPage, leafFree in He.
    cbn [run_size] in He.
    pose proof (takes_run alt a row_limit x (proj1 Hx) Ht ip_min 0%N) as H.
    assert (Hip : ip_ok ip_min) by (unfold ip_ok, ip_min; cbn; lia). specialize (H Hip).
    unfold row_limit, RumDataPageSize in *. lia.
  Qed.

  Lemma page_progress rm bound items n tl items' rest e :
    Forall (row_ok alt a) items -> row_ok alt a n -> ssorted cmp items ->
    (forall x, In x items -> cmp x n <> 0%Z) -> (rm = true \/ (cmp n bound <= 0)%Z) ->
    pt_leafEnough alt a items n = true ->
    placeOnPage alt a cmpA rm bound items (n :: tl) = Some (items', rest, e) -> length rest < length (n :: tl).
  Proof.
    clear Hmulti Hsafe. intros Hi Hn Hs Hnf Hbd Hroom Hpl.
    pose proof (row_gt_min alt a cmpA n Hn) as Hmin.
    eapply (place_leaf_progress cmp item_min (item_size alt a) RumDataPageSize OK); [reflexivity|exact Hs|exact Hmin|exact Hnf|exact Hbd| |exact Hpl].
    intros prev pos Hin Hlt. unfold pt_leafEnough, freeOnPage in Hroom.
    set (fr := leafFree _ _ _ _) in *.
    assert (Hblk : alt = true \/ (blk (ip prev) <= blk (ip n))%N).
    { destruct alt; [left; reflexivity|right]. unfold compareRumItem in Hlt. apply cip_lt in Hlt. lia. }
    unfold item_size. destruct Hblk as [Halt|Hblk].
    - pose proof (room_check_bound alt a n (ip (@item_min datum)) (pos mod 8)%N _ (proj1 Hn) ltac:(cbn; lia) Hroom) as H.
      rewrite Halt in *. unfold rumCheckPlaceToDataPageLeaf in *. lia.
    - pose proof (room_check_bound alt a n (ip prev) (pos mod 8)%N _ (proj1 Hn) Hblk Hroom). lia.
  Qed.

  Lemma pt_place_ok : leafPlace_ok cmp pt_ok (fits_page alt a) (pt_leafEnough alt a) (pt_leafPlace alt a cmpA) multi.
  Proof using Hcfg HA Hsafe Hmulti.
    intros rm bound items x tl Hm Hs Ho Hf Hsb Hob Hnf Hbd Hen.
    pose proof (rows_of _ Ho) as Hro. pose proof (rows_of _ Hob) as Hrb.
    assert (Hox : pt_ok x) by (inversion Hob; assumption).
    unfold pt_leafPlace.
    assert (Hbd1 : rm = true \/ forall y, In y items -> (cmp y bound <= 0)%Z).
    { destruct Hbd as [H|H]; [auto|right]. intros y Hy. apply H. right; exact Hy. }
    destruct (page_place alt a cmpA HA rm bound items (x :: tl) ltac:(discriminate) Hro Hrb Hs Hsb Hbd1)
      as (items' & used & rest & e & P1 & P2 & P3 & P4 & P5).
    pose proof (page_progress rm bound items x tl items' rest e Hro (proj1 Hox) Hs Hnf
      ltac:(destruct Hbd as [H|H]; [auto|right; apply H; left; reflexivity]) Hen P1) as Hpr.
    assert (Hoi : Forall pt_ok items').
    { apply Forall_forall. intros y Hy. apply P4 in Hy as [Hy|[Hy _]].
      - rewrite Forall_forall in Ho. auto.
      - rewrite Forall_forall in Hob. apply Hob. rewrite P2. apply in_app_iff. auto. }
    set (isnew := fun y => forallb (fun o => negb (cmp y o =? 0)%Z) items).
    assert (Hnew : forall y, isnew y = true <-> forall o, In o items -> cmp y o <> 0%Z).
    { intro y. unfold isnew. rewrite forallb_forall. split; intros H o Hin; specialize (H o Hin); lia. }
    exists items', used, (filter isnew used), rest. rewrite P1. split; [reflexivity|]. split; [exact P2|]. split.
    { intros ->. cbn [app] in P2. subst rest. lia. }
    split; [exact P3|]. split; [exact Hoi|]. split.
    { destruct (single_case tl Hm) as [Hal|Etl].
      - eapply (page_batch_fits alt a cmpA rm bound items (x :: tl)); eauto.
      - subst tl. destruct (page_single_fits alt a cmpA rm bound items x Hcfg HA Hsafe Hro (proj1 Hox) Hs Hnf Hbd Hf Hen)
          as (items2 & e2 & Q1 & _ & Q3). pose proof (eq_trans (eq_sym P1) Q1) as Q. injection Q as <- _ _. exact Q3. }
    split.
    { intro y. rewrite P4, filter_In, Hnew. tauto. }
    split.
    { intros y Hy. apply filter_In in Hy as [Hy Hn]. split; [exact Hy|]. destruct P5 as [P5|P5]; [auto|right].
      apply P5. apply P4. right. split; [exact Hy|apply Hnew; exact Hn]. }
    intros y Hy. destruct (isnew y) eqn:En; [left; apply filter_In; auto|right].
    unfold isnew in En. clear - En OK. induction items as [|o l IH]; [discriminate|]. cbn [forallb] in En.
    destruct (Z.eqb_spec (cmp y o) 0) as [E|E].
    - exists o. split; [left; reflexivity|]. apply (cmp_sym_eq _ OK). exact E.
    - destruct (IH En) as (o' & Ho' & E'). exists o'. split; [right; exact Ho'|exact E'].
  Qed.

  Lemma pt_split_ok : leafSplit_ok cmp pt_ok (fits_page alt a) (findOnPage alt cmpA) (pt_leafEnough alt a) (splitPage alt a) multi.
  Proof using Hcfg HA Hmulti.
    intros items x tl Hm Hs Ho Hf Hsb Hob Hnf Hen.
    pose proof (rows_of _ Ho) as Hro. pose proof (rows_of _ Hob) as Hrb.
    assert (Hox : pt_ok x) by (inversion Hob; assumption).
    pose proof (nonempty_page items x Ho Hox Hen) as Hne.
    destruct (page_split alt a cmpA Hcfg HA items x tl Hne Hro Hrb Hs Hsb Hnf) as (l & r & used & rest & P1 & P2 & P3 & P4 & P5 & _).
    assert (Hsm : forall y, In y items \/ In y (x :: tl) -> takes_at_most alt a row_limit y).
    { rewrite Forall_forall in Ho, Hob. intros y [Hy|Hy]; [apply Ho|apply Hob]; exact Hy. }
    destruct (page_split_nonempty alt a cmpA row_limit items x tl l r rest Hcfg HA Hne Hro Hrb Hs Hnf Hf limit3 Hsm Hen P1)
      as (Q1 & Q2 & used' & Q3 & Q4 & Q5 & Q6).
    destruct (page_split_fits alt a cmpA row_limit items x tl l r rest Hcfg HA Hne Hro Hrb Hs Hsb Hnf Hf limit3 Hsm
      (single_case tl Hm) P1) as [F1 F2].
    exists l, r, used', rest. split; [exact P1|]. repeat (split; [assumption|]). split.
    { apply Forall_forall. intros y Hy. apply Q5 in Hy as [Hy|Hy].
      - rewrite Forall_forall in Ho. auto.
      - rewrite Forall_forall in Hob. apply Hob. rewrite Q4. apply in_app_iff. auto. }
    repeat (split; [assumption|]). exact Q6.
  Qed.
End Inst.
