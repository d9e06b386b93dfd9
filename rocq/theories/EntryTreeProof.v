(** The entry tree instance meets what the generic tree proofs ask for. *)
From Verif Require Import Base Ord OrdProof Codec CodecSpec CodecProof LeafSpec LeafCodec Entries EntriesProof
  BTree BTreeInv BTreeFind BTreeParent BTreeSplit BTreeRoot BTreeIns PostingTree EntryTree.
From Coq Require Import NArith ZArith Lia List Bool Arith ZifyBool ZifyNat ZifyN.
Import ListNotations.
Ltac Zify.zify_post_hook ::= Z.div_mod_to_equations.

Lemma firstn_len {A} (l1 l2 : list A) : firstn (length l1) (l1 ++ l2) = l1.
Proof. rewrite firstn_app, Nat.sub_diag, firstn_all. apply app_nil_r. Qed.
Lemma skipn_len {A} (l1 l2 : list A) : skipn (length l1) (l1 ++ l2) = l2.
Proof. rewrite skipn_app, Nat.sub_diag, skipn_all. reflexivity. Qed.
Lemma skipn_len1 {A} (l1 : list A) x l2 : skipn (S (length l1)) (l1 ++ x :: l2) = l2.
Proof. change (x :: l2) with ([x] ++ l2). rewrite app_assoc. replace (S (length l1)) with (length (l1 ++ [x])) by (rewrite app_length; simpl; lia). apply skipn_len. Qed.

(** ** binary searches *)
Section Search.
  Context {T : Type} (cmp : T -> T -> Z) (OK : total_cmp cmp).

  Lemma elocate_any rm d x : (rm = false -> forall d0 k c, d = d0 ++ [(k, c)] -> (cmp x k <= 0)%Z) ->
    forall fuel low high, high - low < fuel -> 1 <= low -> low <= high -> high <= length d + 1 ->
    (low = 1 \/ exists k c, nth_error d (low - 2) = Some (k, c) /\ (cmp k x < 0)%Z) ->
    (low <= length d) ->
    let o := elocate_loop cmp fuel rm d x low high in
    1 <= o <= length d /\
    (o = 1 \/ (exists k c, nth_error d (o - 2) = Some (k, c) /\ 2 <= o /\ (cmp k x < 0)%Z)
     \/ (exists k c, nth_error d (o - 1) = Some (k, c) /\ cmp k x = 0%Z /\ (o < length d \/ rm = false))).
  Proof.
    intros Hlast. induction fuel as [|f IH]; intros low high Hf Hl Hlh Hh Hlow Hmax; [lia|].
    cbn [elocate_loop]. destruct (Nat.ltb_spec low high) as [L|L].
    - set (mid := low + (high - low) / 2). assert (Hm : low <= mid < high) by (unfold mid; lia).
      destruct ((mid =? length d) && rm) eqn:Em.
      + cbn [Z.eqb Z.ltb Z.compare]. apply IH; auto; lia.
      + destruct (nth_error d (mid - 1)) as [[k c]|] eqn:En.
        2: { apply nth_error_None in En. lia. }
        destruct (Z.eqb_spec (cmp x k) 0) as [E0|E0].
        { split; [lia|]. right; right. exists k, c. split; [exact En|]. split; [apply (cmp_sym_eq _ OK); exact E0|].
          destruct rm; [left; lia|right; reflexivity]. }
        destruct (Z.ltb_spec 0 (cmp x k)) as [E1|E1].
        * assert (mid <> length d).
          { intros Ed. destruct rm; [lia|]. apply nth_error_split in En as (d1 & d2 & E & El).
            assert (d2 = []) as -> by (rewrite E, app_length in Ed; simpl in Ed; destruct d2; [reflexivity|simpl in Ed; lia]).
            specialize (Hlast eq_refl _ _ _ E). lia. }
          apply IH; try lia. right. exists k, c. replace (mid + 1 - 2) with (mid - 1) by lia. split; [exact En|].
          apply (cmp_gt_lt _ OK). exact E1.
        * apply IH; auto; lia.
    - assert (high = low) by lia. subst high. split; [lia|].
      destruct Hlow as [->|(k & c & En & Hk)]; [left; reflexivity|].
      destruct (Nat.eq_dec low 1) as [->|]; [left; reflexivity|]. right; left. exists k, c. repeat split; auto. lia.
  Qed.
  Lemma entryLocate_ok : locate_ok cmp true (entryLocateEntry cmp).
  Proof.
    intros rm d x Hne Hl o. assert (1 <= length d) by (destruct d; [congruence|simpl; lia]).
    apply elocate_any; lia.
  Qed.

  (** position found, or position to insert at *)
  Definition leaf_pos (items : list T) (x : T) (r : bool * nat) : Prop :=
    match r with
    | (true, o) => exists l1 y l2, items = l1 ++ y :: l2 /\ o = S (length l1) /\ cmp y x = 0%Z
    | (false, o) => exists l1 l2, items = l1 ++ l2 /\ o = S (length l1) /\
        (forall y, In y l1 -> (cmp y x < 0)%Z) /\ (forall y, In y l2 -> (cmp x y < 0)%Z)
    end.
  Lemma eleaf_any items x : ssorted cmp items -> forall fuel low high, high - low < fuel -> 1 <= low -> low <= high ->
    high <= length items + 1 ->
    (forall y, In y (firstn (low - 1) items) -> (cmp y x < 0)%Z) ->
    (forall y, In y (skipn (high - 1) items) -> (cmp x y < 0)%Z) ->
    leaf_pos items x (eleaf_loop cmp fuel items x low high).
  Proof.
    intro Hs. induction fuel as [|f IH]; intros low high Hf Hl Hlh Hh Hlo Hhi; [lia|].
    cbn [eleaf_loop]. destruct (Nat.ltb_spec low high) as [L|L].
    - set (mid := low + (high - low) / 2). assert (Hm : low <= mid < high) by (unfold mid; lia).
      destruct (nth_error items (mid - 1)) as [k|] eqn:En.
      2: { apply nth_error_None in En. lia. }
      apply nth_error_split in En as (l1 & l2 & E & El).
      assert (H1 : forall y, In y l1 -> (cmp y k < 0)%Z).
      { intros y Hy. rewrite E in Hs. apply ssorted_app in Hs as (_ & _ & H). apply H; [exact Hy|left; reflexivity]. }
      assert (H2 : forall y, In y l2 -> (cmp k y < 0)%Z).
      { intros y Hy. rewrite E in Hs. apply ssorted_app in Hs as (_ & H & _). apply ssorted_inv in H as [_ H].
        rewrite Forall_forall in H. apply H. exact Hy. }
      destruct (Z.eqb_spec (cmp x k) 0) as [E0|E0].
      { cbn. exists l1, k, l2. split; [exact E|]. split; [lia|]. apply (cmp_sym_eq _ OK); exact E0. }
      destruct (Z.ltb_spec 0 (cmp x k)) as [E1|E1].
      + apply IH; try lia; auto. apply (cmp_gt_lt _ OK) in E1.
        intros y Hy. rewrite E, firstn_app in Hy. apply in_app_iff in Hy as [Hy|Hy].
        * rewrite firstn_all2 in Hy by lia. apply (cmp_lt_trans _ OK _ k); auto.
        * replace (mid + 1 - 1 - length l1) with 1 in Hy by lia. cbn in Hy. destruct Hy as [<-|[]]. exact E1.
      + apply IH; try lia; auto. assert (E2 : (cmp x k < 0)%Z) by lia.
        intros y Hy. rewrite E, skipn_app in Hy. replace (mid - 1 - length l1) with 0 in Hy by lia.
        rewrite skipn_all2 in Hy by lia. cbn in Hy. destruct Hy as [<-|Hy]; [exact E2|].
        apply (cmp_lt_trans _ OK _ k); auto.
    - assert (high = low) by lia. subst high. cbn. exists (firstn (low - 1) items), (skipn (low - 1) items).
      split; [symmetry; apply firstn_skipn|]. split; [rewrite firstn_length; lia|]. auto.
  Qed.
  Lemma entryLeaf_pos items x : ssorted cmp items -> leaf_pos items x (entryLocateLeafEntry cmp items x).
  Proof.
    intro Hs. unfold entryLocateLeafEntry. destruct (Nat.eqb_spec (length items) 0) as [E|E].
    - apply length_zero_iff_nil in E. subst items. cbn. exists [], []. cbn. repeat split; intros y [].
    - apply eleaf_any; auto; try lia; cbn [Nat.sub firstn].
      + intros y [].
      + intros y Hy. rewrite skipn_all2 in Hy by lia. destruct Hy.
  Qed.
  Lemma entryFind_ok ok : leafFind_ok cmp ok (entryLocateLeafEntry cmp).
  Proof.
    intros items x Hs _ _. pose proof (entryLeaf_pos items x Hs) as H.
    destruct (entryLocateLeafEntry cmp items x) as [[|] o]; cbn [leaf_pos fst] in *.
    - destruct H as (l1 & y & l2 & -> & _ & E). split; [|reflexivity]. intros _. exists y. split; [|exact E].
      apply in_app_iff. right; left; reflexivity.
    - destruct H as (l1 & l2 & -> & _ & H1 & H2). split; [discriminate|]. intros (y & Hy & E).
      apply in_app_iff in Hy as [Hy|Hy].
      + specialize (H1 y Hy). lia.
      + specialize (H2 y Hy). apply (cmp_lt_gt _ OK) in H2. lia.
  Qed.
End Search.

(** ** sizes *)
Lemma used_app {T} (size : T -> N) l1 l2 : usedSpace size (l1 ++ l2) = (usedSpace size l1 + usedSpace size l2)%N.
Proof. induction l1 as [|a l1 IH]; cbn [app usedSpace fold_right] in *; [reflexivity|]. unfold usedSpace in IH. rewrite IH. apply N.add_assoc. Qed.
Lemma used_cons {T} (size : T -> N) x l : usedSpace size (x :: l) = (size x + 4 + usedSpace size l)%N.
Proof. reflexivity. Qed.

Lemma sep_spec {T} (size : T -> N) half : forall l lsize m, Forall (fun t => size t <= m)%N l ->
  (lsize <= half + m + 4)%N ->
  let n := sepCount size half lsize l in
  n <= length l /\ (lsize + usedSpace size (firstn n l) <= half + m + 4)%N /\
  (n < length l -> (half < lsize + usedSpace size (firstn n l))%N).
Proof.
  induction l as [|t l IH]; intros lsize m Hm Hl; cbn [sepCount].
  - cbn. lia.
  - destruct (N.ltb_spec half lsize) as [L|L]; [cbn; lia|].
    apply Forall_cons_iff in Hm as [Ht Hm]. unfold ItemIdSize. cbn zeta.
    destruct (IH (lsize + size t + 4)%N m Hm ltac:(lia)) as (A & B & C).
    cbn [firstn length]. rewrite used_cons. split; [lia|]. split; [lia|]. intro H. specialize (C ltac:(lia)). lia.
Qed.

(** cutting a page that is too full *)
Lemma split_sizes {T} (size : T -> N) l : Forall (fun t => size t <= RumMaxItemSize)%N l ->
  (8148 < usedSpace size l)%N -> (usedSpace size l <= 8152 + 2716)%N ->
  let n := entrySep size l in
  1 <= n < length l /\ (usedSpace size (firstn n l) <= entryPageSpace)%N /\ (usedSpace size (skipn n l) <= entryPageSpace)%N.
Proof.
  intros Hm H1 H2 n. set (U := usedSpace size l) in *. unfold entrySep in n. fold U in n.
  destruct (sep_spec size (U / 2) l 0 RumMaxItemSize Hm) as (A & B & C); [lia|]. fold n in A, B, C. unfold RumMaxItemSize, entryPageSpace in *.
  assert (E : U = (usedSpace size (firstn n l) + usedSpace size (skipn n l))%N) by (unfold U; rewrite <- (firstn_skipn n l) at 1; apply used_app).
  assert (n <> length l). { intro En. rewrite En, firstn_all in B. fold U in B. lia. }
  assert (n <> 0). { destruct l as [|t l]; [cbn in U; lia|]. unfold n. cbn [sepCount]. destruct (N.ltb_spec (U / 2) 0); lia. }
  specialize (C ltac:(lia)). lia.
Qed.

Lemma maxalign_le n : (n <= MAXALIGN n)%N.
Proof. unfold MAXALIGN. lia. Qed.
Lemma maxalign_mod n : (MAXALIGN n mod 8 = 0)%N.
Proof. unfold MAXALIGN. lia. Qed.
Lemma maxalign_mono n m : (n <= m)%N -> (MAXALIGN n <= MAXALIGN m)%N.
Proof. unfold MAXALIGN. lia. Qed.
Lemma maxalign_id n : (n mod 8 = 0)%N -> MAXALIGN n = n.
Proof. unfold MAXALIGN. lia. Qed.

Section Inst.
  Context {K : Type}.
  Variable compareFn : N -> K -> K -> Z.
  Variable altOf : N -> bool.
  Variable attrOf : N -> attr.
  Variable rawSize : ekey K -> N.
  Variable dflt : K.
  Hypothesis HK : forall n, total_cmp (compareFn n).
  Hypothesis Hatt : forall n, config_ok (altOf n) (attrOf n).
  Notation etup := (etup K).
  Notation cmp := (ecmp compareFn).
  Notation tsz := (tupsize altOf attrOf rawSize).
  Notation isz := (isize rawSize).

  Lemma ecmp_total : total_cmp cmp.
  Proof.
    pose proof (att_total compareFn HK) as H. constructor; unfold ecmp.
    - intro x. apply (tc_refl _ H).
    - intros x y. apply (tc_anti _ H).
    - intros x y z. apply (tc_trans _ H).
  Qed.
  Let OK := ecmp_total.

  Definition et_ok (t : etup) : Prop := (tsz t <= RumMaxItemSize)%N.
  Definition et_kok (t : etup) : Prop := (isz t <= RumMaxItemSize)%N.
  Definition et_fit (l : list etup) : Prop := (usedSpace tsz l <= entryPageSpace)%N.
  Definition et_ifit (d : list (etup * nat)) : Prop :=
    Forall (fun kc => et_kok (fst kc)) d /\ (usedSpace (fun kc => isz (fst kc)) d <= entryPageSpace)%N.

  Lemma size_ge_datum s a d : legal_align (attr_align a) -> (s <= rumComputeDatumSize s a d)%N.
  Proof.
    intro Hl. destruct a as [n|n al|al pk]; cbn [rumComputeDatumSize attr_align] in *; [lia|pose proof (align_ge al s Hl); lia|].
    pose proof (align_ge al s Hl). destruct d as [v|bs|f p]; try lia. destruct (pk && _); [lia|]. destruct f; lia.
  Qed.
  Lemma size_ge alt a rows : legal_align (attr_align a) -> forall prev s, (s <= postingListSize alt a rows prev s)%N.
  Proof.
    intro Hl. induction rows as [|r rows IH]; intros prev s; cbn [postingListSize]; [lia|].
    eapply N.le_trans; [|apply IH]. unfold rumCheckPlaceToDataPageLeaf.
    destruct (add r) as [d|].
    - eapply N.le_trans; [|apply size_ge_datum; exact Hl]. destruct alt; lia.
    - destruct alt; lia.
  Qed.
  Lemma isize_le t : (isz t <= tsz t)%N.
  Proof.
    unfold isize, tupsize. destruct (t_data t) as [rows|n]; [|lia].
    unfold ksize. set (r := rawSize _).
    rewrite <- (maxalign_id (MAXALIGN r)) at 1 by apply maxalign_mod. apply maxalign_mono.
    pose proof (size_ge (altK altOf (t_key t)) (attrK attrOf (t_key t)) rows (proj1 (Hatt _)) ip_min (MAXALIGN r)). lia.
  Qed.

  Lemma et_kok_ok : kok_ok et_ifit et_ok et_kok et_rkey.
  Proof.
    split; [|split].
    - intros x Hx. unfold et_kok, et_ok in *. pose proof (isize_le x). lia.
    - intros d kc [H _] Hin. rewrite Forall_forall in H. auto.
    - intros b items d H. unfold et_rkey. destruct H as [[Hn H]|(-> & Hd & H & _)].
      + destruct items as [|i items]; [congruence|]. rewrite Forall_forall in H. unfold et_kok. pose proof (isize_le (last (i :: items) b)).
        pose proof (H (last (i :: items) b) (in_rev_last _ _ _)) as Ho. unfold et_ok in Ho. lia.
      + rewrite Forall_forall in H. destruct d as [|kc d]; [congruence|]. apply H. apply in_rev_last.
  Qed.

  Lemma free_bound used x extra : (used <= entryPageSpace)%N ->
    (x + ItemIdSize <=? PageGetFreeSpace used + extra)%N = false -> (extra <= used)%N ->
    (8148 < used - extra + (x + 4))%N.
  Proof. unfold PageGetFreeSpace, entryPageSpace, ItemIdSize. intros H1 H2 H3. destruct (N.ltb_spec (8152 - used) 4); lia. Qed.
  Lemma free_enough used x extra : (used <= entryPageSpace)%N -> (extra <= used)%N ->
    (x + ItemIdSize <=? PageGetFreeSpace used + extra)%N = true -> (used - extra + (x + 4) <= entryPageSpace)%N.
  Proof. unfold PageGetFreeSpace, entryPageSpace, ItemIdSize. intros H1 H2 H3. destruct (N.ltb_spec (8152 - used) 4); lia. Qed.

  Lemma placed_used d1 k0 c d2 k r :
    usedSpace (fun kc => isz (fst kc)) (placed d1 k0 c d2 k r) =
    (usedSpace (fun kc => isz (fst kc)) (d1 ++ (k0, c) :: d2) + (isz k + 4))%N.
  Proof. unfold placed. rewrite !used_app, !used_cons. cbn [fst]. lia. Qed.
  Lemma placed_kok d1 k0 c d2 k r : et_kok k -> Forall (fun kc => et_kok (fst kc)) (d1 ++ (k0, c) :: d2) ->
    Forall (fun kc => et_kok (fst kc)) (placed d1 k0 c d2 k r).
  Proof.
    intros Hk H. unfold placed. rewrite Forall_app in *. destruct H as [H1 H2]. apply Forall_cons_iff in H2 as [H2 H3].
    split; [exact H1|]. constructor; [exact Hk|]. constructor; assumption.
  Qed.
  Lemma et_ienough_ok : ienough_ok et_ifit et_kok (et_ienough rawSize).
  Proof.
    intros d1 k0 c d2 k r Hk [H1 H2] He. split; [apply placed_kok; assumption|].
    rewrite placed_used. unfold et_ienough in He.
    pose proof (free_enough _ (isz k) 0 H2 ltac:(lia)) as H. rewrite N.add_0_r in H. specialize (H He). lia.
  Qed.
  Lemma et_isep_ok : isep_ok et_ifit et_kok (et_ienough rawSize) (et_isep rawSize).
  Proof.
    intros rm d1 k0 c d2 k r Hk [H1 H2] He d.
    pose proof (placed_kok d1 k0 c d2 k r Hk H1) as Hf. fold d in Hf.
    pose proof (placed_used d1 k0 c d2 k r) as Hu. fold d in Hu.
    unfold et_ienough in He. pose proof (free_bound _ (isz k) 0 H2) as Hb. rewrite N.add_0_r in Hb. specialize (Hb He ltac:(lia)).
    unfold et_kok, RumMaxItemSize, entryPageSpace in Hk, H2.
    destruct (split_sizes (fun kc => isz (fst kc)) d) as (A & B & C); [exact Hf|lia|lia|].
    unfold et_isep. split; [exact A|]. rewrite <- (firstn_skipn (entrySep (fun kc => isz (fst kc)) d) d) in Hf. apply Forall_app in Hf as [F1 F2].
    split; split; assumption.
  Qed.
  Lemma et_iroot_ok : iroot_ok et_ifit et_kok.
  Proof.
    intros k l k' r Hk Hk'. split; [repeat constructor; assumption|].
    rewrite !used_cons. cbn [fst]. unfold et_kok, RumMaxItemSize, entryPageSpace in *. cbn. lia.
  Qed.

  Notation Inv := (Inv cmp et_ifit true et_ok et_fit).
  Notation leaf_body := (leaf_body cmp true et_ok et_fit true).
  Notation in_range := (in_range cmp).
  Notation ble := (ble cmp).
  Notation blt := (blt cmp).

  Lemma et_rbound_ok : rbound_ok cmp et_ifit true et_ok et_fit (@et_rbound K).
  Proof.
    intros tight st root G HI h b pg Hat Hg Hr.
    destruct (page_facts cmp et_ifit true et_ok et_fit tight st root G HI h b pg Hat Hg) as (Hleaf & _ & Hlt & _ & _ & Hb).
    unfold et_rbound. rewrite Hleaf. destruct h as [|h]; cbn [Nat.eqb].
    - destruct Hb as (Hhi & _ & Hs & _ & _ & Hin & Ht).
      assert (Hbr : in_range (slo G b) (shi G b) (p_bound pg)).
      { rewrite Hhi. unfold hi_of. destruct (p_right pg) eqn:Er; [|congruence]. split.
        - rewrite Hhi in Hlt. unfold hi_of in Hlt. rewrite Er in Hlt. exact Hlt.
        - apply (ble_refl cmp OK). }
      destruct (Ht (or_intror eq_refl) Hr _ Hbr) as (y & Hy & Hc).
      destruct (p_items pg) as [|i items]; [destruct Hy|].
      set (z := last (i :: items) (p_bound pg)). assert (Hz : In z (i :: items)) by apply in_rev_last.
      assert (Hyz : (cmp y z <= 0)%Z).
      { destruct (@exists_last _ (i :: items) ltac:(discriminate)) as (l0 & w & E). unfold z. rewrite E, last_last.
        rewrite E in Hs, Hy. apply in_app_iff in Hy as [Hy|[<-|[]]]; [|rewrite (tc_refl _ OK); lia].
        apply ssorted_app in Hs as (_ & _ & H). specialize (H y w Hy (or_introl eq_refl)). lia. }
      assert (H1 : (cmp z (p_bound pg) <= 0)%Z).
      { destruct (Hin z Hz) as [_ H]. rewrite Hhi in H. unfold hi_of in H. destruct (p_right pg); [|congruence]. apply bat_le in H. exact H. }
      assert (H2 : (cmp (p_bound pg) z <= 0)%Z) by (apply (tc_trans _ OK _ y); assumption).
      apply (cmp_le_sym _ OK) in H2. lia.
    - destruct Hb as (_ & _ & _ & _ & Hl & kc & d & Ed & _).
      destruct (@exists_last _ (p_downs pg)) as (l0 & [k c] & E); [rewrite Ed; discriminate|].
      rewrite E, last_last. cbn [fst]. apply (cmp_sym_eq _ OK). exact (Hl eq_refl Hr l0 k c E).
  Qed.

  (** ** the page a tuple goes to *)
  Definition samekey (x y : etup) : bool := (cmp y x =? 0)%Z.

  Lemma new_page items x : ssorted cmp items ->
    let '(found, off) := et_find compareFn items x in
    exists l1 old l2, items = l1 ++ old ++ l2 /\ et_new items x found off = l1 ++ x :: l2 /\
      (if found then exists y, old = [y] /\ cmp y x = 0%Z /\ nth_error items (off - 1) = Some y else old = []) /\
      (forall y, In y l1 -> (cmp y x < 0)%Z) /\ (forall y, In y l2 -> (cmp x y < 0)%Z).
  Proof.
    intro Hs. unfold et_find. pose proof (entryLeaf_pos cmp OK items x Hs) as H.
    destruct (entryLocateLeafEntry cmp items x) as [[|] o]; cbn [leaf_pos] in H.
    - destruct H as (l1 & y & l2 & -> & -> & E). exists l1, [y], l2. split; [reflexivity|].
      split.
      { unfold et_new, insert_at, delete_at. cbn [Nat.sub]. rewrite !Nat.sub_0_r.
        rewrite (firstn_len l1), skipn_len1, (firstn_len l1), (skipn_len l1). reflexivity. }
      split.
      { exists y. split; [reflexivity|]. split; [exact E|]. cbn [Nat.sub]. rewrite Nat.sub_0_r, nth_error_app2, Nat.sub_diag by lia. reflexivity. }
      apply ssorted_app in Hs as (_ & Hs & H). apply ssorted_inv in Hs as [_ Hs]. rewrite Forall_forall in Hs.
      split.
      + intros z Hz. apply (cmp_lt_le_trans _ OK _ y); [apply H; [exact Hz|left; reflexivity]|lia].
      + intros z Hz. apply (cmp_le_lt_trans _ OK _ y); [apply (cmp_sym_eq _ OK) in E; lia|apply Hs; exact Hz].
    - destruct H as (l1 & l2 & -> & -> & H1 & H2). exists l1, [], l2. split; [reflexivity|]. split; [|auto].
      unfold et_new, insert_at. cbn [Nat.sub]. rewrite !Nat.sub_0_r. rewrite firstn_len, skipn_len. reflexivity.
  Qed.

  Section Leaf.
    Context (st : list (page etup)) (root : nat) (G : @ghost etup).
    Hypothesis HI : Inv true st root G.
    Context (b : nat) (pg : page etup) (x : etup).
    Hypothesis Hat : at_ G 0 b.
    Hypothesis Hg : get st b = Some pg.
    Hypothesis Hx : in_range (slo G b) (shi G b) x.
    Hypothesis Hox : et_ok x.

    Lemma lb : leaf_body (slo G b) (shi G b) pg.
    Proof. apply (page_facts cmp et_ifit true et_ok et_fit true st root G HI 0 b pg Hat Hg). Qed.

    Lemma stay_others : stay st G b (samekey x).
    Proof.
      intros c pc y Hc Hne Hgc Hy. unfold samekey. destruct (Z.eqb_spec (cmp y x) 0) as [E|E]; [exfalso|reflexivity].
      apply Hne. apply (in_range_unique cmp OK et_ifit true et_ok et_fit true st root G HI c b x); auto.
      apply (in_range_eq cmp OK _ _ y x); [exact E|].
      destruct (page_facts cmp et_ifit true et_ok et_fit true st root G HI 0 c pc Hc Hgc) as (_ & _ & _ & _ & _ & Hb).
      destruct Hb as (_ & _ & _ & _ & _ & Hin & _). apply Hin. exact Hy.
    Qed.

    (** facts about the page with the tuple in place *)
    Lemma new_facts : let '(found, off) := et_find compareFn (p_items pg) x in
      let all := et_new (p_items pg) x found off in
      ssorted cmp all /\ Forall et_ok all /\
      page_chg (p_items pg) all (samekey x) [x] /\
      (forall y, In y all -> in_range (slo G b) (shi G b) y) /\
      (p_right pg <> None -> forall z, in_range (slo G b) (shi G b) z -> exists y, In y all /\ (cmp z y <= 0)%Z) /\
      (et_enough compareFn altOf attrOf rawSize (p_items pg) x = true -> et_fit all) /\
      (et_enough compareFn altOf attrOf rawSize (p_items pg) x = false ->
         (8148 < usedSpace tsz all)%N /\ (usedSpace tsz all <= 8152 + 2716)%N).
    Proof.
      destruct lb as (Hhi & Hd & Hs & Ho & Hf & Hin & Ht).
      pose proof (new_page (p_items pg) x Hs) as H. unfold et_enough.
      destruct (et_find compareFn (p_items pg) x) as [found off].
      destruct H as (l1 & old & l2 & E & En & Hold & H1 & H2). cbn zeta. rewrite En.
      assert (Hsame : forall y, In y old -> cmp y x = 0%Z).
      { intros y Hy. destruct found; [|subst old; destruct Hy]. destruct Hold as (y0 & -> & Ey & _). destruct Hy as [<-|[]]. exact Ey. }
      set (items := p_items pg) in *.
      assert (Hio : forall y, In y items <-> In y l1 \/ In y old \/ In y l2) by (intro y; rewrite E, !in_app_iff; tauto).
      assert (Hss : ssorted cmp (l1 ++ x :: l2)).
      { rewrite E in Hs. apply ssorted_app in Hs as (S1 & S2 & _). apply ssorted_app in S2 as (_ & S2 & _).
        apply ssorted_app. split; [exact S1|]. split.
        - apply ssorted_cons; [exact S2|]. apply Forall_forall. exact H2.
        - intros u v Hu [<-|Hv]; [apply H1; exact Hu|]. apply (cmp_lt_trans _ OK _ x); auto. }
      assert (Hin' : forall y, In y (l1 ++ x :: l2) <-> In y l1 \/ y = x \/ In y l2).
      { intro y. rewrite in_app_iff. cbn. intuition. }
      split; [exact Hss|]. split.
      { apply Forall_forall. intros y Hy. rewrite Forall_forall in Ho. apply Hin' in Hy as [Hy|[->|Hy]]; [|exact Hox|]; apply Ho, Hio; auto. }
      split.
      { intro y. rewrite Hin'. unfold samekey. split.
        - intros [Hy|[->|Hy]].
          + left. split; [apply Hio; auto|]. specialize (H1 y Hy). lia.
          + right; left; reflexivity.
          + left. split; [apply Hio; auto|]. specialize (H2 y Hy). apply (cmp_lt_gt _ OK) in H2. lia.
        - intros [[Hy Hk]|[<-|[]]]; [|auto]. apply Hio in Hy as [Hy|[Hy|Hy]]; auto.
          specialize (Hsame y Hy). lia. }
      split.
      { intros y Hy. apply Hin' in Hy as [Hy|[->|Hy]]; [|exact Hx|]; apply Hin, Hio; auto. }
      split.
      { intros Hr z Hz. destruct (Ht (or_introl eq_refl) Hr z Hz) as (y & Hy & Hc). apply Hio in Hy as [Hy|[Hy|Hy]].
        - exists y. split; [apply Hin'; auto|exact Hc].
        - exists x. split; [apply Hin'; auto|]. apply (tc_trans _ OK _ y); [exact Hc|]. specialize (Hsame y Hy). lia.
        - exists y. split; [apply Hin'; auto|exact Hc]. }
      assert (Hu : usedSpace tsz (l1 ++ x :: l2) = (usedSpace tsz items - usedSpace tsz old + (tsz x + 4))%N /\ (usedSpace tsz old <= usedSpace tsz items)%N).
      { rewrite E, !used_app, used_cons. lia. }
      assert (Hex : (if found then match nth_error items (off - 1) with Some t => tsz t + ItemIdSize | None => 0 end else 0)%N = usedSpace tsz old).
      { destruct found; [|subst old; reflexivity]. destruct Hold as (y & -> & _ & Hn). rewrite Hn. rewrite used_cons. unfold ItemIdSize. cbn. lia. }
      rewrite Hex. destruct Hu as [Hu Hle]. unfold et_fit in *. rewrite Hu. split.
      - intro He. apply free_enough; assumption.
      - intro He. split; [apply free_bound; assumption|]. unfold et_ok, RumMaxItemSize, entryPageSpace in *. lia.
    Qed.

    Lemma place_case : et_enough compareFn altOf attrOf rawSize (p_items pg) x = true ->
      exists items', et_place compareFn altOf attrOf rawSize (rightmost pg) (p_bound pg) (p_items pg) [x] = Some (items', []) /\
        leaf_body (slo G b) (shi G b)
          (mkPage (p_leaf pg) items' (p_downs pg) (p_bound pg) (p_left pg) (p_right pg) (p_deleted pg)) /\
        page_chg (p_items pg) items' (samekey x) [x].
    Proof.
      intro He. pose proof new_facts as H. unfold et_place. destruct (et_find compareFn (p_items pg) x) as [found off].
      destruct H as (A & B & C & D & E & F & _). specialize (F He). unfold et_fit in F.
      exists (et_new (p_items pg) x found off). apply N.leb_le in F as F'. rewrite F'. split; [reflexivity|]. split; [|exact C].
      destruct lb as (Hhi & Hd & _). unfold BTreeInv.leaf_body. cbn [p_items p_downs p_right].
      split; [exact Hhi|]. split; [exact Hd|]. split; [exact A|]. split; [exact B|]. split; [exact F|]. split; [exact D|].
      intros _ Hr. apply E. exact Hr.
    Qed.

    Lemma split_case : et_enough compareFn altOf attrOf rawSize (p_items pg) x = false ->
      exists l r, et_split compareFn altOf attrOf rawSize (p_items pg) [x] (snd (et_find compareFn (p_items pg) x)) = Some (l, r, []) /\
        let k := last l x in
        blt (slo G b) (BAt k) /\ blt (BAt k) (shi G b) /\
        (forall lft rr, leaf_body (slo G b) (BAt k) (mkPage (p_leaf pg) l [] k lft (Some rr) false)) /\
        (forall lft, leaf_body (BAt k) (shi G b) (mkPage (p_leaf pg) r [] (p_bound pg) lft (p_right pg) false)) /\
        page_chg (p_items pg) (l ++ r) (samekey x) [x] /\ l <> [] /\ r <> [].
    Proof.
      intro He. pose proof new_facts as H. unfold et_split. destruct (et_find compareFn (p_items pg) x) as [found off].
      cbn [fst snd]. set (all := et_new (p_items pg) x found off) in *.
      destruct H as (A & B & C & D & E & _ & F). destruct (F He) as [F1 F2].
      destruct (split_sizes tsz all B F1 F2) as (S1 & S2 & S3). set (n := entrySep tsz all) in *.
      exists (firstn n all), (skipn n all).
      apply N.leb_le in S2 as S2'. apply N.leb_le in S3 as S3'. rewrite S2', S3'. cbn [andb]. split; [reflexivity|].
      set (l := firstn n all) in *. set (r := skipn n all) in *.
      assert (El : length l = n) by (unfold l; rewrite firstn_length; lia).
      assert (Er : length r = length all - n) by (unfold r; rewrite skipn_length; reflexivity).
      assert (Hl : l <> []) by (intro Q; rewrite Q in El; cbn in El; lia).
      assert (Hr : r <> []) by (intro Q; rewrite Q in Er; cbn in Er; lia).
      assert (Ea : all = l ++ r) by (symmetry; apply firstn_skipn). rewrite Ea in A, B, D, E, C.
      apply ssorted_app in A as (A1 & A2 & A3). apply Forall_app in B as [B1 B2].
      cbn zeta. set (k := last l x).
      assert (Hk : In k l) by (unfold k; destruct l as [|y0 l0]; [congruence|apply in_rev_last]).
      assert (Hlk : forall y, In y l -> (cmp y k <= 0)%Z).
      { intros y Hy. unfold k. destruct (@exists_last _ l Hl) as (l0 & w & Q). rewrite Q, last_last. rewrite Q in A1, Hy.
        apply in_app_iff in Hy as [Hy|[<-|[]]]; [|rewrite (tc_refl _ OK); lia].
        apply ssorted_app in A1 as (_ & _ & H). specialize (H y w Hy (or_introl eq_refl)). lia. }
      assert (Hkl : blt (slo G b) (BAt k)) by (apply D; apply in_app_iff; auto).
      assert (Hkh : blt (BAt k) (shi G b)).
      { destruct r as [|r0 r'] eqn:Qr; [congruence|]. apply (blt_le_trans cmp OK _ (BAt r0)).
        - apply bat_lt. apply A3; [exact Hk|left; reflexivity].
        - apply D. apply in_app_iff. right; left; reflexivity. }
      split; [exact Hkl|]. split; [exact Hkh|]. split.
      { intros lft rr. unfold BTreeInv.leaf_body. cbn [p_items p_downs p_right hi_of p_bound].
        split; [reflexivity|]. split; [reflexivity|]. split; [exact A1|]. split; [exact B1|]. split; [exact S2|]. split.
        - intros y Hy. split; [apply D; apply in_app_iff; auto|]. apply bat_le. apply Hlk. exact Hy.
        - intros _ _ z [_ Hz]. exists k. split; [exact Hk|]. apply bat_le in Hz. exact Hz. }
      split.
      { intro lft. destruct lb as (Hhi & _). unfold BTreeInv.leaf_body. cbn [p_items p_downs p_right].
        split; [rewrite Hhi; reflexivity|]. split; [reflexivity|]. split; [exact A2|]. split; [exact B2|]. split; [exact S3|]. split.
        - intros y Hy. split; [apply bat_lt; apply A3; auto|]. apply D. apply in_app_iff. auto.
        - intros _ Hrn z [Hz1 Hz2]. destruct (E Hrn z) as (y & Hy & Hc).
          { split; [|exact Hz2]. apply (blt_le_trans cmp OK _ (BAt k)); [exact Hkl|apply blt_ble; exact Hz1]. }
          exists y. split; [|exact Hc]. apply in_app_iff in Hy as [Hy|Hy]; [exfalso|exact Hy].
          specialize (Hlk y Hy). apply bat_lt in Hz1. pose proof (tc_trans _ OK z y k Hc Hlk) as Q.
          apply (cmp_lt_gt _ OK) in Hz1. lia. }
      auto.
    Qed.
  End Leaf.

  Lemma eFindLeaf_spec st G x : Inv true st 0 G ->
    exists b stack pg, eFindLeaf compareFn st x = Some (b, stack) /\ at_ G 0 b /\ get st b = Some pg /\
      in_range (slo G b) (shi G b) x /\ stack_ok G 0 stack.
  Proof.
    intro HI. unfold eFindLeaf.
    destruct (findLeaf_root cmp OK et_ifit true et_ok et_fit (@et_rbound K) (et_locate compareFn) et_rbound_ok (entryLocate_ok cmp OK) true st 0 G HI x)
      as (b & stack & Hf & Hat & Hr & Hst).
    destruct (page_get cmp et_ifit true et_ok et_fit true st 0 G HI 0 b Hat) as [pg Hg].
    exists b, stack, pg. auto.
  Qed.
End Inst.
