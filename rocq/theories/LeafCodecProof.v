(** Leaf-page space facts for the real item sizes. *)
From Verif Require Import NBits Base Ord OrdProof Codec CodecSpec CodecProof LeafPage LeafProof LeafSpace LeafCodec.
From Coq Require Import NArith ZifyBool ZifyNat ZifyN.
Local Open Scope N_scope.
Ltac Zify.zify_post_hook ::= Z.div_mod_to_equations.

(** Alignment period of the attached column. *)
Definition attr_al (a : attr) : N :=
  match a with AByVal _ => 1 | AFixed _ al => al | AVar al _ => al end.
Definition attr_ok (a : attr) : Prop := legal_align (attr_al a).

Lemma align_per al pos k : legal_align al -> align_to al (pos + al * k) = align_to al pos + al * k.
Proof. unfold align_to. intros [->|[->|[->| ->]]]; lia. Qed.

Lemma datum_size_per a d pos k : datum_ok a d -> attr_ok a ->
  rumComputeDatumSize (pos + attr_al a * k) a d = rumComputeDatumSize pos a d + attr_al a * k.
Proof.
  intros Hd Ha. destruct a as [n|n al|al pk], d as [v|bs|f p]; cbn [datum_ok rumComputeDatumSize attr_al] in *;
    try contradiction; unfold attr_ok in Ha; cbn [attr_al] in Ha.
  - lia.
  - rewrite align_per by exact Ha. lia.
  - destruct f; destruct (pk && can_make_short _); try rewrite align_per by exact Ha; lia.
Qed.
Lemma datum_size_mono a d p q : datum_ok a d -> attr_ok a -> p <= q ->
  rumComputeDatumSize p a d <= rumComputeDatumSize q a d.
Proof.
  intros Hd Ha Hpq. destruct a as [n|n al|al pk], d as [v|bs|f x]; cbn [datum_ok rumComputeDatumSize attr_al] in *;
    try contradiction; unfold attr_ok in Ha; cbn [attr_al] in Ha.
  - lia.
  - pose proof (align_mono al p q Ha Hpq). lia.
  - pose proof (align_mono al p q Ha Hpq). destruct f; destruct (pk && can_make_short _); lia.
Qed.

Lemma ip_size_pos p prev : 2 <= rumDataPageLeafGetItemPointerSize p prev.
Proof.
  unfold rumDataPageLeafGetItemPointerSize. cbn [sz_block_loop sz_off_loop].
  destruct (_ <? HIGHBIT), (_ <? SEVENTHBIT); lia.
Qed.

Section Inst.
  Variables (alt : bool) (a : attr).
  Hypothesis Ha : attr_ok a.
  Notation sz := (item_size alt a).
  Notation ok := (item_ok alt a).

  Lemma ok_item_min : ok item_min.
  Proof. unfold item_ok, ip_ok. cbn. lia. Qed.
  Lemma isz_gt x p pos : ok x -> ok p -> pos < sz x p pos.
  Proof.
    intros (_ & _ & Hd) _. unfold item_size, rumCheckPlaceToDataPageLeaf.
    pose proof (ip_size_pos (ip x) (ip p)).
    set (s1 := if alt then pos + 6 else pos + rumDataPageLeafGetItemPointerSize (ip x) (ip p)).
    assert (pos < s1) by (unfold s1; destruct alt; lia).
    destruct (add x) as [d|]; [|assumption]. pose proof (datum_size_ge a d s1 Hd). lia.
  Qed.
  Lemma isz_mono x p pos pos' : ok x -> ok p -> pos <= pos' -> sz x p pos <= sz x p pos'.
  Proof.
    intros (_ & _ & Hd) _ H. unfold item_size, rumCheckPlaceToDataPageLeaf.
    destruct (add x) as [d|]; destruct alt; try lia; apply datum_size_mono; auto; lia.
  Qed.
  Lemma isz_per x p pos k : ok x -> ok p -> sz x p (pos + attr_al a * k) = sz x p pos + attr_al a * k.
  Proof.
    intros (_ & _ & Hd) _. unfold item_size, rumCheckPlaceToDataPageLeaf.
    destruct (add x) as [d|]; destruct alt; try lia; rewrite <- (datum_size_per a d) by auto; f_equal; lia.
  Qed.
  Lemma ip_size_nearer x p q : blk p <= blk q -> blk q <= blk x -> blk x < 2 ^ 32 ->
    rumDataPageLeafGetItemPointerSize x q <= rumDataPageLeafGetItemPointerSize x p.
  Proof.
    intros H1 H2 Hx. unfold rumDataPageLeafGetItemPointerSize.
    assert (E : forall b, b <= blk x -> sub32 (blk x) b = blk x - b).
    { intros b Hb. unfold sub32. change (2^32) with 4294967296 in *. lia. }
    rewrite (E (blk q)), (E (blk p)) by lia.
    assert (sz_block_loop (S (N.size_nat (blk x - blk q))) (blk x - blk q) <=
            sz_block_loop (S (N.size_nat (blk x - blk p))) (blk x - blk p)); [|lia].
    apply sz_block_mono; [lia| |lia].
    eapply N.lt_le_trans; [apply size_nat_pow7|]. apply N.pow_le_mono_r; lia.
  Qed.
  Lemma isz_prev cmpA x p q pos : ok x -> ok p -> ok q ->
    (compareRumItem alt cmpA p q <= 0)%Z -> (compareRumItem alt cmpA q x < 0)%Z ->
    sz x q pos <= sz x p pos.
  Proof.
    intros (Hx & _ & Hd) _ _ H1 H2. unfold item_size, rumCheckPlaceToDataPageLeaf.
    destruct alt; [lia|]. unfold compareRumItem in *.
    assert (Hb : blk (ip p) <= blk (ip q) /\ blk (ip q) <= blk (ip x)).
    { split.
      - destruct (Z.eq_dec (rumCompareItemPointers (ip p) (ip q)) 0) as [E|E].
        + apply cip_eq in E. rewrite E. lia.
        + assert (rumCompareItemPointers (ip p) (ip q) < 0)%Z as L by lia. apply cip_lt in L. lia.
      - apply cip_lt in H2. lia. }
    pose proof (ip_size_nearer (ip x) (ip p) (ip q) (proj1 Hb) (proj2 Hb) (proj1 Hx)).
    destruct (add x) as [d|]; [|lia]. apply datum_size_mono; auto. lia.
  Qed.
  Lemma sz_block_bound f : forall v, v < 2 ^ 35 -> sz_block_loop f v <= 5.
  Proof.
    assert (G : forall f k v, v < 2 ^ (7 * (N.of_nat k + 1)) -> sz_block_loop f v <= N.of_nat k + 1).
    { clear. induction f as [|f IH]; intros k v H; cbn [sz_block_loop]; [lia|].
      destruct (N.ltb_spec v HIGHBIT) as [L|L]; [lia|]. unfold HIGHBIT in L.
      destruct k as [|k]; [change (2 ^ (7 * (N.of_nat 0 + 1))) with 128 in H; lia|].
      rewrite shiftr_7. assert (v / 128 < 2 ^ (7 * (N.of_nat k + 1))).
      { apply N.div_lt_upper_bound; [lia|].
        replace (7 * (N.of_nat (S k) + 1)) with (7 + 7 * (N.of_nat k + 1)) in H by lia.
        rewrite N.pow_add_r in H. exact H. }
      apply IH in H0. lia. }
    intros v H. apply (G f 4%nat v). exact H.
  Qed.
  Lemma ip_size_restart x p q :
    rumDataPageLeafGetItemPointerSize x q <= rumDataPageLeafGetItemPointerSize x p + 4.
  Proof.
    unfold rumDataPageLeafGetItemPointerSize.
    pose proof (sz_block_bound (S (N.size_nat (sub32 (blk x) (blk q)))) (sub32 (blk x) (blk q))) as H0.
    assert (H1 : sub32 (blk x) (blk q) < 2 ^ 35).
    { eapply N.lt_trans; [apply sub32_lt|]. reflexivity. }
    specialize (H0 H1).
    assert (1 <= sz_block_loop (S (N.size_nat (sub32 (blk x) (blk p)))) (sub32 (blk x) (blk p))).
    { cbn [sz_block_loop]. destruct (_ <? _); lia. }
    lia.
  Qed.
  Lemma datum_size_shift d p k : datum_ok a d ->
    rumComputeDatumSize (p + k) a d <= rumComputeDatumSize p a d + k + (attr_al a - 1).
  Proof.
    intro Hd.
    assert (Hal : 0 < attr_al a) by (unfold attr_ok, legal_align in Ha; lia).
    set (j := (k + (attr_al a - 1)) / attr_al a).
    assert (Hk : k <= attr_al a * j /\ attr_al a * j <= k + (attr_al a - 1)).
    { unfold j. pose proof (N.mul_div_le (k + (attr_al a - 1)) (attr_al a) ltac:(lia)).
      pose proof (N.mul_succ_div_gt (k + (attr_al a - 1)) (attr_al a) ltac:(lia)). nia. }
    pose proof (datum_size_mono a d (p + k) (p + attr_al a * j) Hd Ha ltac:(lia)).
    rewrite datum_size_per in H by auto. lia.
  Qed.
  Lemma isz_restart x p q pos : ok x -> ok p -> ok q -> sz x q pos <= sz x p pos + 8.
  Proof.
    intros (Hx & _ & Hd) _ _. unfold item_size, rumCheckPlaceToDataPageLeaf. destruct alt; [lia|].
    pose proof (ip_size_restart (ip x) (ip p) (ip q)).
    set (s0 := rumDataPageLeafGetItemPointerSize (ip x) (ip q)) in *.
    set (s := rumDataPageLeafGetItemPointerSize (ip x) (ip p)) in *.
    destruct (add x) as [d|]; [|lia].
    unfold attr_ok, legal_align in Ha.
    pose proof (datum_size_mono a d (pos + s0) (pos + s + 4) Hd Ha ltac:(lia)) as Hm.
    destruct (N.le_gt_cases (attr_al a) 4) as [L|G].
    - pose proof (datum_size_shift d (pos + s) 4 Hd). lia.
    - assert (E : attr_al a = 8) by lia.
      pose proof (datum_size_per a d (pos + s) 1 Hd Ha) as Hper. rewrite E in Hper.
      pose proof (datum_size_mono a d (pos + s + 4) (pos + s + 8 * 1) Hd Ha ltac:(lia)). lia.
  Qed.
End Inst.

From Verif Require Import LeafSpec.

Lemma run_size_posting alt a l : forall prev pos,
  run_size (item_size alt a) prev l pos = postingListSize alt a l (ip prev) pos.
Proof.
  induction l as [|x r IH]; intros prev pos; cbn [run_size postingListSize]; [reflexivity|]. apply IH.
Qed.

Lemma fits_run alt a l : Forall (item_ok alt a) l ->
  (fits_page alt a l <-> run_size (item_size alt a) item_min l 0 <= RumDataPageSize).
Proof.
  intro H. rewrite run_size_posting. cbn [ip item_min].
  destruct (posting_write_ok alt a l 0 ip_min H) as [bs Hb].
  rewrite (posting_size_eq alt a l 0 ip_min bs H Hb). unfold fits_page. split.
  - intros (bs' & Hb' & Hl). rewrite Hb in Hb'. injection Hb' as <-. lia.
  - intro Hl. exists bs. split; [exact Hb|lia].
Qed.

Lemma takes_run alt a S it : item_ok alt a it -> takes_at_most alt a S it ->
  forall p pos, ip_ok p -> rumCheckPlaceToDataPageLeaf alt a it p pos <= pos + S.
Proof.
  intros Hok Ht p pos Hp. destruct (item_write_ok alt a pos it p Hok) as [w Hw].
  rewrite (item_size_eq alt a pos it p w Hok Hw). specialize (Ht p pos w Hp Hw). lia.
Qed.

Lemma row_gt_min alt a cmpA it : row_ok alt a it -> (compareRumItem alt cmpA item_min it < 0)%Z.
Proof.
  intros [(Hip & _) Ho]. unfold compareRumItem.
  assert (L : (rumCompareItemPointers (ip (@item_min datum)) (ip it) < 0)%Z).
  { apply cip_lt. cbn. lia. }
  destruct alt; [|exact L]. cbn [add item_min]. destruct (add it); [lia|exact L].
Qed.

Section Page.
  Variables (alt : bool) (a : attr) (cmpA : datum -> datum -> Z).
  Hypothesis Hcfg : config_ok alt a.
  Hypothesis HA : total_cmp cmpA.
  Notation cmp := (compareRumItem alt cmpA).
  Notation sz := (item_size alt a).

  Lemma Hattr : attr_ok a.
  Proof. destruct Hcfg as [H _]. exact H. Qed.
  Lemma al_gt0 : 0 < attr_al a.
  Proof. pose proof Hattr as H. unfold attr_ok, legal_align in H. lia. Qed.
  Lemma cmp_ok : total_cmp cmp.
  Proof. apply cri_total. exact HA. Qed.

  Lemma rows_items l : Forall (row_ok alt a) l -> Forall (item_ok alt a) l.
  Proof. apply Forall_impl. intros x [H _]. exact H. Qed.

  Lemma page_place rm bound items batch :
    batch <> [] -> Forall (row_ok alt a) items -> Forall (row_ok alt a) batch ->
    ssorted cmp items -> ssorted cmp batch ->
    (rm = true \/ forall x, In x items -> (cmp x bound <= 0)%Z) ->
    exists items' used rest e,
      placeOnPage alt a cmpA rm bound items batch = Some (items', rest, e) /\
      batch = used ++ rest /\ ssorted cmp items' /\
      (forall x, In x items' <-> In x items \/ (In x used /\ forall y, In y items -> cmp x y <> 0%Z)) /\
      (rm = true \/ forall x, In x items' -> (cmp x bound <= 0)%Z).
  Proof.
    intros Hne Hi Hb Hsi Hsb Hbd. destruct batch as [|key btl]; [contradiction|].
    assert (Hmin : (cmp item_min key < 0)%Z) by (apply (row_gt_min alt a); inversion Hb; assumption).
    destruct (place_leaf_spec cmp item_min sz RumDataPageSize cmp_ok rm bound items (key :: btl) key btl
      eq_refl Hsi Hsb Hmin Hbd) as (items' & used & rest & e & H1 & H2 & H3 & H4).
    exists items', used, rest, e. split; [exact H1|]. split; [exact H2|].
    assert (Hsu : ssorted cmp used) by (rewrite H2 in Hsb; apply (ssorted_app cmp) in Hsb; tauto).
    destruct (merge_spec cmp cmp_ok used items Hsu Hsi) as [Hm1 Hm2]. rewrite <- H3 in Hm1, Hm2.
    split; [exact Hm1|]. split; [exact Hm2|].
    destruct Hbd as [?|Hbd]; [left; assumption|]. destruct H4 as [?|H4]; [left; assumption|]. right.
    intros x Hx. apply Hm2 in Hx as [Hx|[Hx _]]; auto.
  Qed.

  Lemma page_batch_space rm bound items batch items' rest e :
    attr_align a = 1 -> Forall (row_ok alt a) items -> Forall (row_ok alt a) batch ->
    ssorted cmp items -> ssorted cmp batch -> fits_page alt a items ->
    placeOnPage alt a cmpA rm bound items batch = Some (items', rest, e) ->
    Forall (row_ok alt a) items' -> fits_page alt a items'.
  Proof.
    intros Hal Hi Hb Hsi Hsb Hfit Hpl Hok'.
    apply fits_run in Hfit; [|apply rows_items; exact Hi].
    apply fits_run; [apply rows_items; exact Hok'|].
    destruct (place_leaf_space cmp item_min sz RumDataPageSize cmp_ok (item_ok alt a) (ok_item_min alt a)
      (isz_gt alt a) (isz_mono alt a Hattr) (attr_al a) al_gt0 (isz_per alt a Hattr)
      (isz_prev alt a Hattr cmpA) rm bound items batch items' rest e Hal (rows_items _ Hi) (rows_items _ Hb) Hsi Hsb)
      as [H1 H2]; auto.
    - intros x Hx. apply (row_gt_min alt a). rewrite Forall_forall in Hi. auto.
    - intros x Hx. apply (row_gt_min alt a). rewrite Forall_forall in Hb. auto.
    - lia.
  Qed.

  (** One row added to a page that has room for it. *)
  Lemma page_single rm bound items n :
    Forall (row_ok alt a) items -> row_ok alt a n -> ssorted cmp items ->
    (forall x, In x items -> cmp x n <> 0%Z) ->
    (rm = true \/ forall x, In x (n :: items) -> (cmp x bound <= 0)%Z) ->
    dataIsEnoughSpaceLeaf alt a n (freeOnPage alt a items) = true ->
    exists e pre olds, items = pre ++ olds /\
      placeOnPage alt a cmpA rm bound items [n] = Some (pre ++ n :: olds, [], e) /\
      (forall x, In x pre -> (cmp x n < 0)%Z) /\ (forall x, In x olds -> (cmp n x < 0)%Z).
  Proof.
    intros Hi Hn Hs Hnf Hbd Hroom.
    assert (Hmin : (cmp item_min n < 0)%Z) by (apply (row_gt_min alt a); exact Hn).
    assert (Hb1 : rm = true \/ forall x, In x items -> (cmp x bound <= 0)%Z).
    { destruct Hbd as [?|H]; [left; auto|right]. intros x Hx. apply H. right; exact Hx. }
    assert (Hsn : ssorted cmp [n]) by (repeat constructor).
    destruct (place_leaf_spec cmp item_min sz RumDataPageSize cmp_ok rm bound items [n] n []
      eq_refl Hs Hsn Hmin Hb1) as (items' & used & rest & e & H1 & H2 & H3 & H4).
    assert (Hprog : (length rest < length [n])%nat).
    { eapply (place_leaf_progress cmp item_min sz RumDataPageSize cmp_ok); [reflexivity|exact Hs|exact Hmin|exact Hnf| | |exact H1].
      - destruct Hbd as [?|H]; [left; auto|right]. apply H. left; reflexivity.
      - intros prev pos Hin Hlt. unfold freeOnPage in Hroom.
        set (fr := leafFree _ _ _ _) in *.
        assert (Hblk : alt = true \/ blk (ip prev) <= blk (ip n)).
        { destruct alt; [left; reflexivity|right]. unfold compareRumItem in Hlt. apply cip_lt in Hlt. lia. }
        unfold item_size. destruct Hblk as [Halt|Hblk].
        + pose proof (room_check_bound alt a n (ip (@item_min datum)) (pos mod 8) _ (proj1 Hn) ltac:(cbn; lia) Hroom).
          subst alt. unfold rumCheckPlaceToDataPageLeaf in *. lia.
        + pose proof (room_check_bound alt a n (ip prev) (pos mod 8) _ (proj1 Hn) Hblk Hroom). lia. }
    destruct rest; [|simpl in Hprog; lia]. rewrite app_nil_r in H2. subst used.
    destruct (findInLeafPage_spec_split cmp item_min cmp_ok items n Hs Hmin Hnf) as (pre & olds & Hsp & Hp & Ho).
    exists e, pre, olds. split; [exact Hsp|]. split; [|split; [exact Hp|exact Ho]].
    unfold placeOnPage. rewrite H1, H3, Hsp.
    rewrite (merge_prefix cmp sz RumDataPageSize cmp_ok) by (intros x y [<-|[]] Hy; auto). f_equal. f_equal. f_equal. f_equal.
    destruct olds as [|o olds]; [reflexivity|]. rewrite merge_cons.
    specialize (Ho o (or_introl eq_refl)).
    replace (0 <? cmp n o)%Z with false by lia. replace (cmp n o =? 0)%Z with false by lia.
    reflexivity.
  Qed.

  Lemma single_space pre n olds :
    safe_align a -> Forall (row_ok alt a) (pre ++ olds) -> row_ok alt a n ->
    (forall x, In x pre -> (cmp x n < 0)%Z) -> (forall x, In x olds -> (cmp n x < 0)%Z) ->
    fits_page alt a (pre ++ olds) ->
    dataIsEnoughSpaceLeaf alt a n (freeOnPage alt a (pre ++ olds)) = true ->
    fits_page alt a (pre ++ n :: olds).
  Proof.
    intros Hsafe Hi Hn Hp Ho Hfit Hroom.
    pose proof Hattr as HAT. pose proof al_gt0 as HAL. pose proof Hcfg as HCF.
    apply Forall_app in Hi as [Hi1 Hi2].
    pose proof (rows_items _ Hi1) as Hr1. pose proof (rows_items _ Hi2) as Hr2.
    apply fits_run in Hfit; [|apply Forall_app; split; apply rows_items; assumption].
    apply fits_run; [apply Forall_app; split; [apply rows_items; assumption|constructor; [apply Hn|apply rows_items; assumption]]|].
    unfold dataIsEnoughSpaceLeaf, freeOnPage, leafFree in Hroom. apply N.leb_le in Hroom.
    assert (Hlt : (cmp (last pre item_min) n < 0)%Z).
    { destruct pre as [|y l _] using rev_ind; [apply (row_gt_min alt a); exact Hn|]. rewrite last_last.
      apply Hp. apply in_app_iff. right; left; reflexivity. }
    assert (Holt : match olds with [] => True | o :: _ => (cmp n o < 0)%Z end).
    { destruct olds; [exact I|]. apply Ho. left; reflexivity. }
    destruct (Hn) as [Hni _].
    set (q := last pre item_min) in *. set (p := run_size sz item_min pre 0) in *.
    assert (Hoq : item_ok alt a q) by (apply ok_last; [apply ok_item_min|apply rows_items; assumption]).
    (* size at the worst position *)
    assert (Hgen : forall k, sz n q (p) <= p + (sz n item_min 0 + (attr_al a - 1)) \/ k = 0).
    { intro k. left. unfold item_size, rumCheckPlaceToDataPageLeaf. cbn [ip item_min].
      assert (Hs : alt = true \/ rumDataPageLeafGetItemPointerSize (ip n) (ip q) <= rumDataPageLeafGetItemPointerSize (ip n) ip_min).
      { destruct alt; [left; reflexivity|right]. apply ip_size_worst; [|apply Hni].
        unfold compareRumItem in Hlt. apply cip_lt in Hlt. lia. }
      destruct Hni as (_ & _ & Hd). destruct (add n) as [d|].
      - destruct alt.
        + pose proof (datum_size_shift a HAT d (0 + 6) p Hd). rewrite (N.add_comm p 6).
          change (0 + 6) with 6 in *. lia.
        + destruct Hs as [?|Hs]; [discriminate|].
          set (s := rumDataPageLeafGetItemPointerSize (ip n) (ip q)) in *.
          set (s0 := rumDataPageLeafGetItemPointerSize (ip n) ip_min) in *.
          pose proof (datum_size_mono a d (p + s) (s0 + p) Hd HAT ltac:(lia)).
          pose proof (datum_size_shift a HAT d s0 p Hd). rewrite N.add_0_l. lia.
      - destruct alt; [lia|]. destruct Hs as [?|Hs]; [discriminate|]. lia. }
    destruct (Hgen 1) as [Hw|]; [|discriminate]. clear Hgen.
    change (rumCheckPlaceToDataPageLeaf alt a n ip_min 0) with (sz n item_min 0) in Hroom.
    destruct (N.le_gt_cases (attr_al a) 4) as [L4|G4].
    - eapply (insert_space cmp item_min sz RumDataPageSize (item_ok alt a) (ok_item_min alt a)
        (isz_gt alt a) (isz_mono alt a HAT) (attr_al a) HAL (isz_per alt a HAT) (isz_prev alt a HAT cmpA) pre n olds
        (sz n item_min 0 + (attr_al a - 1))); auto. lia.
    - (* alignment 8: the column is fixed width, a multiple of 8 *)
      assert (E8 : attr_al a = 8) by (pose proof HAT as H; unfold attr_ok, legal_align in H; lia).
      destruct a as [w|w al|al pk] eqn:Ea; cbn [attr_al safe_align] in *; try lia.
      assert (Hm : N.of_nat w mod 8 = 0) by (destruct Hsafe; [lia|assumption]). subst al.
      destruct alt eqn:Ealt; [destruct HCF as [_ Hc]; destruct (Hc eq_refl); discriminate|].
      destruct (add n) as [d|] eqn:En.
      + eapply (insert_space8 _ item_min _ RumDataPageSize (item_ok false (AFixed w 8)) (ok_item_min _ _)
          (isz_gt false _) (isz_mono false _ HAT) 8 ltac:(lia) (isz_per false _ HAT) (isz_prev false _ HAT cmpA)
          pre n olds (item_size false (AFixed w 8) n item_min 0 / 8)); auto.
        * unfold item_size, rumCheckPlaceToDataPageLeaf in *. rewrite En in *. cbn [rumComputeDatumSize ip item_min] in *.
          assert (Hs : rumDataPageLeafGetItemPointerSize (ip n) (ip q) <= rumDataPageLeafGetItemPointerSize (ip n) ip_min).
          { apply ip_size_worst; [|apply Hni]. unfold compareRumItem in Hlt. apply cip_lt in Hlt. lia. }
          fold q. fold p. unfold align_to.
          set (s := rumDataPageLeafGetItemPointerSize (ip n) (ip q)) in *.
          set (s0 := rumDataPageLeafGetItemPointerSize (ip n) ip_min) in *. clearbody s s0 p. clear - Hm Hs Hw. unfold align_to in *. lia.
        * unfold item_size, rumCheckPlaceToDataPageLeaf in *. rewrite En in *. cbn [rumComputeDatumSize ip item_min] in *.
          unfold align_to in *. lia.
      + eapply (insert_space _ item_min _ RumDataPageSize (item_ok false (AFixed w 8)) (ok_item_min _ _)
          (isz_gt false _) (isz_mono false _ HAT) 8 ltac:(lia) (isz_per false _ HAT) (isz_prev false _ HAT cmpA) pre n olds
          (item_size false (AFixed w 8) n item_min 0)); auto; [|lia].
        unfold item_size, rumCheckPlaceToDataPageLeaf. rewrite En. cbn [ip item_min]. fold q p.
        assert (Hs : rumDataPageLeafGetItemPointerSize (ip n) (ip q) <= rumDataPageLeafGetItemPointerSize (ip n) ip_min).
        { apply ip_size_worst; [|apply Hni]. unfold compareRumItem in Hlt. apply cip_lt in Hlt. lia. }
        lia.
  Qed.

  (** Where the search puts a row that is not on the page. *)
  Lemma find_split items n : ssorted cmp items -> row_ok alt a n -> (forall x, In x items -> cmp x n <> 0%Z) ->
    let off := snd (findOnPage alt cmpA items n) in
    (1 <= off <= S (length items))%nat /\
    (forall x, In x (firstn (off - 1) items) -> (cmp x n < 0)%Z) /\
    (forall x, In x (skipn (off - 1) items) -> (cmp n x < 0)%Z).
  Proof.
    intros Hs Hn Hnf. pose proof (row_gt_min alt a cmpA n Hn) as Hmin.
    pose proof (findInLeafPage_spec cmp item_min cmp_ok items n Hs Hmin) as Hp.
    unfold findOnPage. destruct (findInLeafPage cmp item_min items n) as [fd off]. cbn [snd].
    destruct Hp as (Ho & Hpre & Hpost & _). rewrite Forall_forall in Hpre, Hpost.
    split; [exact Ho|]. split; [exact Hpre|]. intros x Hx. specialize (Hpost x Hx).
    assert (cmp x n <> 0%Z).
    { apply Hnf. rewrite <- (firstn_skipn (off - 1) items). apply in_app_iff. right; exact Hx. }
    apply (cmp_gt_lt _ cmp_ok). lia.
  Qed.

  Lemma run_pos l : l <> [] -> Forall (item_ok alt a) l -> 0 < run_size sz item_min l 0.
  Proof.
    intros Hne Hl.
    pose proof (R_ge cmp sz (item_ok alt a) (isz_gt alt a) (isz_mono alt a Hattr) (attr_al a) al_gt0 (isz_per alt a Hattr)
      (isz_prev alt a Hattr cmpA) l item_min 0 Hl (ok_item_min alt a)) as H.
    destruct l; [contradiction|]. cbn [length] in H. lia.
  Qed.

  Lemma split_parts (seq l r : list (item datum)) total :
    ssorted cmp seq -> split_at sz seq item_min 0 total = Some (l, r) ->
    seq = l ++ r /\ l <> [] /\ (forall x, In x l -> (cmp x (last l item_min) <= 0)%Z) /\
    (forall x, In x r -> (cmp (last l item_min) x < 0)%Z).
  Proof.
    intros Hs H. apply split_at_app in H as [-> Hne]. split; [reflexivity|]. split; [exact Hne|].
    apply (ssorted_app cmp) in Hs as (Hl & _ & Hlr).
    destruct l as [|y l _] using rev_ind; [contradiction|]. rewrite last_last.
    apply (ssorted_app cmp) in Hl as (_ & _ & Hy). split.
    - intros x Hx. apply in_app_iff in Hx as [Hx|[<-|[]]].
      + specialize (Hy x y Hx (or_introl eq_refl)). lia.
      + rewrite (tc_refl _ cmp_ok). lia.
    - intros x Hx. apply Hlr; [apply in_app_iff; right; left; reflexivity|exact Hx].
  Qed.

  Lemma page_split items n btl :
    let batch := n :: btl in let off := snd (findOnPage alt cmpA items n) in
    items <> [] -> Forall (row_ok alt a) items -> Forall (row_ok alt a) batch ->
    ssorted cmp items -> ssorted cmp batch -> (forall x, In x items -> cmp x n <> 0%Z) ->
    exists l r used rest, splitPage alt a items batch off = Some (l, r, rest) /\
      batch = used ++ rest /\ ssorted cmp (l ++ r) /\
      (forall x, In x (l ++ r) <-> In x items \/ In x used) /\ l <> [] /\
      (forall x, In x l -> (cmp x (last l item_min) <= 0)%Z) /\
      (forall x, In x r -> (cmp (last l item_min) x < 0)%Z).
  Proof.
    intros batch off Hne Hi Hb Hsi Hsb Hnf.
    assert (Hn : row_ok alt a n) by (inversion Hb; assumption).
    destruct (find_split items n Hsi Hn Hnf) as (Ho & Hpre & Hpost). fold off in Ho, Hpre, Hpost.
    unfold splitPage, dataSplitPageLeaf, batch. destruct (Nat.leb_spec off (length items)) as [L|L].
    - set (pre := firstn (off - 1) items) in *. set (olds := skipn (off - 1) items) in *.
      assert (Hsp : items = pre ++ olds) by (symmetry; apply firstn_skipn).
      destruct (total_max sz item_min (pre ++ n :: olds) 0 0) as [total mx] eqn:Etm.
      assert (Ht : total = run_size sz item_min (pre ++ n :: olds) 0)
        by (rewrite <- (total_max_run sz _ item_min 0 0), Etm; reflexivity).
      assert (Hok : Forall (item_ok alt a) (pre ++ n :: olds)).
      { rewrite Hsp in Hi. apply Forall_app in Hi as [H1 H2]. apply Forall_app. split; [apply rows_items; auto|].
        constructor; [apply Hn|apply rows_items; auto]. }
      assert (Hpos : 0 < total) by (rewrite Ht; apply run_pos; [destruct pre; discriminate|exact Hok]).
      assert (Hss : ssorted cmp (pre ++ n :: olds)).
      { rewrite Hsp in Hsi. apply (ssorted_app cmp) in Hsi as (H1 & H2 & H3).
        apply (ssorted_app cmp). split; [exact H1|]. split.
        - apply ssorted_cons; [exact H2|]. apply Forall_forall. exact Hpost.
        - intros x y Hx [<-|Hy]; [apply Hpre; exact Hx|apply H3; auto]. }
      destruct (split_at_some sz (pre ++ n :: olds) item_min 0 total ltac:(destruct pre; discriminate) ltac:(lia))
        as [[l r] E]. rewrite E.
      destruct (split_parts _ l r total Hss E) as (H1 & H2 & H3 & H4).
      exists l, r, [n], btl. split; [reflexivity|]. split; [reflexivity|]. rewrite <- H1.
      split; [exact Hss|]. split; [|auto].
      intro x. rewrite Hsp, !in_app_iff. simpl. tauto.
    - assert (Hlen : skipn (off - 1) items = []) by (apply skipn_all2; lia).
      assert (Hfst : firstn (off - 1) items = items) by (apply firstn_all2; lia).
      destruct (total_max sz item_min items 0 0) as [total mx] eqn:Etm.
      destruct (append_fit sz RumDataPageSize (n :: btl) (last items item_min) total mx) as [used total'] eqn:Eaf.
      destruct (append_fit_spec sz RumDataPageSize _ _ _ _ _ _ Eaf) as [Hu Ht'].
      assert (Ht : total = run_size sz item_min items 0)
        by (rewrite <- (total_max_run sz _ item_min 0 0), Etm; reflexivity).
      assert (Htot : total' = run_size sz item_min (items ++ used) 0) by (rewrite (run_size_app sz), <- Ht; exact Ht').
      assert (Hou : Forall (row_ok alt a) used) by (unfold batch in Hb; rewrite Hu in Hb; apply Forall_app in Hb; tauto).
      assert (Hok : Forall (item_ok alt a) (items ++ used)) by (apply Forall_app; split; apply rows_items; auto).
      assert (Hne' : items ++ used <> []) by (destruct items; [contradiction|discriminate]).
      assert (Hpos : 0 < total') by (rewrite Htot; apply run_pos; auto).
      destruct (split_at_some sz (items ++ used) item_min 0 total' Hne' ltac:(lia)) as [[l r] E]. rewrite E.
      assert (Hss : ssorted cmp (items ++ used)).
      { apply (ssorted_app cmp). split; [exact Hsi|].
        assert (Hsu := Hsb). unfold batch in Hsu. rewrite Hu in Hsu. apply (ssorted_app cmp) in Hsu as (Hsu & _ & _). split; [exact Hsu|].
        intros x y Hx Hy. rewrite Hfst in Hpre. specialize (Hpre x Hx).
        assert (Hy' : In y (n :: btl)) by (rewrite Hu; apply in_app_iff; left; exact Hy).
        destruct Hy' as [<-|Hy']; [exact Hpre|].
        apply (ssorted_inv cmp) in Hsb as [_ Hf]. rewrite Forall_forall in Hf.
        apply (cmp_lt_trans _ cmp_ok _ n); auto. }
      destruct (split_parts _ l r total' Hss E) as (H1 & H2 & H3 & H4).
      exists l, r, used, (skipn (length used) (n :: btl)). split; [reflexivity|]. split; [exact Hu|]. rewrite <- H1.
      split; [exact Hss|]. split; [|auto]. intro x. apply in_app_iff.
  Qed.

  Lemma page_split_space (B : N) items n btl l r rest :
    let batch := n :: btl in let off := snd (findOnPage alt cmpA items n) in
    items <> [] -> Forall (row_ok alt a) items -> Forall (row_ok alt a) batch ->
    ssorted cmp items -> ssorted cmp batch -> (forall x, In x items -> cmp x n <> 0%Z) ->
    fits_page alt a items -> 3 * B + 32 <= RumDataPageSize ->
    (forall x, In x items \/ In x batch -> takes_at_most alt a B x) ->
    (attr_align a = 1 \/ btl = []) ->
    splitPage alt a items batch off = Some (l, r, rest) ->
    fits_page alt a l /\ fits_page alt a r.
  Proof.
    intros batch off Hne Hi Hb Hsi Hsb Hnf Hfit HB Hsmall Hsingle.
    assert (Hn : row_ok alt a n) by (inversion Hb; assumption).
    pose proof (rows_items _ Hi) as Hri. pose proof (rows_items _ Hb) as Hrb.
    apply fits_run in Hfit; [|exact Hri].
    destruct (find_split items n Hsi Hn Hnf) as (Ho & Hpre & Hpost). fold off in Ho, Hpre, Hpost.
    assert (Hal8 : attr_al a <= 8) by (pose proof Hattr as H; unfold attr_ok, legal_align in H; lia).
    assert (HS : forall x p pos, In x (items ++ batch) -> item_ok alt a p -> sz x p pos <= pos + B).
    { intros x p pos Hx Hp. unfold item_size. apply takes_run; [| |apply Hp].
      - rewrite Forall_forall in Hri, Hrb. apply in_app_iff in Hx as [Hx|Hx]; auto.
      - apply Hsmall. apply in_app_iff; exact Hx. }
    assert (Hre : forall x p pos, item_ok alt a x -> item_ok alt a p -> sz x item_min pos <= sz x p pos + 8).
    { intros. apply isz_restart; auto; [exact Hattr|apply ok_item_min]. }
    assert (Hpz : 128 <= RumDataPageSize) by (unfold RumDataPageSize; lia).
    unfold splitPage, dataSplitPageLeaf, batch. destruct (Nat.leb_spec off (length items)) as [L|L].
    - set (pre := firstn (off - 1) items) in *. set (olds := skipn (off - 1) items) in *.
      assert (Hsp : items = pre ++ olds) by (symmetry; apply firstn_skipn).
      destruct (total_max sz item_min (pre ++ n :: olds) 0 0) as [total mx] eqn:Etm.
      assert (Ht : total = run_size sz item_min (pre ++ n :: olds) 0)
        by (rewrite <- (total_max_run sz _ item_min 0 0), Etm; reflexivity).
      assert (Hrp : Forall (item_ok alt a) pre /\ Forall (item_ok alt a) olds) by (rewrite Hsp in Hri; apply Forall_app in Hri; exact Hri).
      destruct Hrp as [Hrp Hro].
      assert (Hok : Forall (item_ok alt a) (pre ++ n :: olds)).
      { apply Forall_app. split; auto. constructor; [apply Hn|auto]. }
      destruct (split_at sz (pre ++ n :: olds) item_min 0 total) as [[l' r']|] eqn:E; [|discriminate].
      intro H. injection H as <- <- _.
      assert (Hlt : (cmp (last pre item_min) n < 0)%Z).
      { destruct pre as [|y l0 _] using rev_ind; [apply (row_gt_min alt a); exact Hn|]. rewrite last_last.
        apply Hpre. apply in_app_iff. right; left; reflexivity. }
      assert (Holt : match olds with [] => True | o :: _ => (cmp n o < 0)%Z end).
      { destruct olds; [exact I|]. apply Hpost. left; reflexivity. }
      assert (Hlp : item_ok alt a (last pre item_min)) by (apply ok_last; [apply ok_item_min|auto]).
      destruct (insert_total cmp item_min sz (item_ok alt a) (ok_item_min alt a) (isz_gt alt a) (isz_mono alt a Hattr)
        (attr_al a) al_gt0 (isz_per alt a Hattr) (isz_prev alt a Hattr cmpA) B pre n olds Hrp (proj1 Hn) Hro Hal8 Hlt Holt)
        as [Hup _].
      { apply HS; [|exact Hlp]. apply in_app_iff. right; left; reflexivity. }
      { intros. apply isz_restart; auto. exact Hattr. }
      rewrite <- Hsp in Hup.
      destruct (split_space cmp item_min sz RumDataPageSize (item_ok alt a) (ok_item_min alt a) (isz_gt alt a) (isz_mono alt a Hattr)
        (attr_al a) al_gt0 (isz_per alt a Hattr) (isz_prev alt a Hattr cmpA) B (pre ++ n :: olds) total l' r' Hok) as [H1 H2]; auto; try lia.
      { intros x p pos Hx. apply HS. apply in_app_iff. rewrite Hsp, in_app_iff. apply in_app_iff in Hx.
        simpl in *. tauto. }
      apply split_at_app in E as [E _]. rewrite E in Hok. apply Forall_app in Hok as [Hok1 Hok2].
      split; apply fits_run; auto.
    - destruct (total_max sz item_min items 0 0) as [total mx] eqn:Etm.
      destruct (append_fit sz RumDataPageSize (n :: btl) (last items item_min) total mx) as [used total'] eqn:Eaf.
      destruct (append_fit_spec sz RumDataPageSize _ _ _ _ _ _ Eaf) as [Hu Ht'].
      assert (Ht : total = run_size sz item_min items 0)
        by (rewrite <- (total_max_run sz _ item_min 0 0), Etm; reflexivity).
      assert (Htot : total' = run_size sz item_min (items ++ used) 0) by (rewrite (run_size_app sz), <- Ht; exact Ht').
      assert (Hou : Forall (item_ok alt a) used) by (unfold batch in Hrb; rewrite Hu in Hrb; apply Forall_app in Hrb; tauto).
      assert (Hok : Forall (item_ok alt a) (items ++ used)) by (apply Forall_app; auto).
      destruct (split_at sz (items ++ used) item_min 0 total') as [[l' r']|] eqn:E; [|discriminate].
      intro H. injection H as <- <- _.
      assert (Hgoal : run_size sz item_min l' 0 <= RumDataPageSize /\ run_size sz item_min r' 0 <= RumDataPageSize).
      { destruct Hsingle as [Hal| ->].
        - eapply (split_space_append cmp item_min sz RumDataPageSize (item_ok alt a) (ok_item_min alt a) (isz_gt alt a)
            (isz_mono alt a Hattr) (attr_al a) al_gt0 (isz_per alt a Hattr) (isz_prev alt a Hattr cmpA) B items (n :: btl) total mx used total' l' r'); auto.
        - assert (Hu1 : used = [] \/ used = [n]).
          { cbn [append_fit] in Eaf. destruct (_ <? _); injection Eaf as <- _; auto. }
          eapply (split_space cmp item_min sz RumDataPageSize (item_ok alt a) (ok_item_min alt a) (isz_gt alt a) (isz_mono alt a Hattr)
            (attr_al a) al_gt0 (isz_per alt a Hattr) (isz_prev alt a Hattr cmpA) B (items ++ used) total' l' r' Hok); auto.
          + intros x p pos Hx. apply HS. apply in_app_iff. apply in_app_iff in Hx as [Hx|Hx]; [left; exact Hx|right].
            destruct Hu1 as [->| ->]; [destruct Hx|exact Hx].
          + destruct Hu1 as [->| ->].
            * rewrite Ht'. cbn [run_size]. lia.
            * rewrite Ht'. cbn [run_size]. 
              pose proof (HS n (last items item_min) total ltac:(apply in_app_iff; right; left; reflexivity)
                ltac:(apply ok_last; [apply ok_item_min|auto])). lia. }
      apply split_at_app in E as [E _]. rewrite E in Hok. apply Forall_app in Hok as [Hok1 Hok2].
      split; apply fits_run; tauto.
  Qed.
End Page.
