(** Small adapters and witnesses used by PropCodec.v. *)
From Verif Require Import Base Ord OrdProof Codec CodecSpec CodecProof LeafPage LeafProof LeafSpace LeafSpec LeafCodec LeafCodecProof.
From Coq Require Import NArith ZArith Lia ZifyBool ZifyNat ZifyN.
Ltac Zify.zify_post_hook ::= Z.div_mod_to_equations.

Lemma room_check_bytes alt a it prev pos free w :
  item_ok alt a it -> (blk prev <= blk (ip it))%N ->
  dataIsEnoughSpaceLeaf alt a it free = true ->
  rumPlaceToDataPageLeaf alt a pos it prev = Some w -> (nlen w <= free)%N.
Proof.
  intros H1 H2 H3 H4. pose proof (room_check_bound alt a it prev pos free H1 H2 H3).
  rewrite (item_size_eq alt a pos it prev w H1 H4) in H. lia.
Qed.

Lemma cri_default (A : Type) (cmpA : A -> A -> Z) (x y : item A) :
  ((compareRumItem false cmpA x y < 0)%Z <->
     (blk (ip x) < blk (ip y) \/ (blk (ip x) = blk (ip y) /\ off (ip x) < off (ip y)))%N) /\
  (compareRumItem false cmpA x y = 0%Z <-> ip x = ip y).
Proof. unfold compareRumItem. split; [apply cip_lt|apply cip_eq]. Qed.

Lemma cri_attach (A : Type) (cmpA : A -> A -> Z) (x y : item A) : total_cmp cmpA ->
  ((compareRumItem true cmpA x y < 0)%Z <->
     match add x, add y with
     | None, Some _ => True
     | Some _, None => False
     | None, None => (rumCompareItemPointers (ip x) (ip y) < 0)%Z
     | Some u, Some v => (cmpA u v < 0)%Z \/ (cmpA u v = 0%Z /\ (rumCompareItemPointers (ip x) (ip y) < 0)%Z)
     end).
Proof.
  intros _. unfold compareRumItem. destruct (add x) as [u|], (add y) as [v|]; try lia.
  destruct (Z.eqb_spec (cmpA u v) 0); lia.
Qed.

Lemma merge_items_spec (A : Type) alt (cmpA : A -> A -> Z) (new stored : list (item A)) :
  total_cmp cmpA ->
  let cmp := compareRumItem alt cmpA in
  ssorted cmp new -> ssorted cmp stored ->
  let merged := rumMergeRumItems cmp new stored in
  ssorted cmp merged /\
  (forall x, In x merged <-> In x stored \/ (In x new /\ forall y, In y stored -> cmp x y <> 0%Z)).
Proof. intros HA cmp Hn Hs. apply merge_spec; auto. apply cri_total. exact HA. Qed.

Lemma leaf_lookup alt (cmpA : datum -> datum -> Z) (items : list (item datum)) (key : item datum) :
  total_cmp cmpA ->
  let cmp := compareRumItem alt cmpA in
  ssorted cmp items -> (cmp item_min key < 0)%Z ->
  let '(found, off) := findOnPage alt cmpA items key in
  (1 <= off <= S (length items))%nat /\
  (found = true <-> exists x, In x items /\ cmp x key = 0%Z) /\
  (found = true -> exists x, nth_error items (off - 1) = Some x /\ cmp x key = 0%Z) /\
  (forall x, In x (firstn (off - 1) items) -> (cmp x key < 0)%Z) /\
  (forall x, In x (skipn (off - 1) items) -> (0 <= cmp x key)%Z).
Proof.
  intros HA cmp Hs Hmin.
  pose proof (findInLeafPage_spec cmp item_min (cri_total alt cmpA HA) items key Hs Hmin) as H.
  unfold findOnPage. destruct (findInLeafPage _ _ _ _) as [fd off].
  destruct H as (H1 & H2 & H3 & H4 & H5). rewrite Forall_forall in H2, H3. repeat split; auto; try lia; apply H4.
Qed.

Lemma page_batch_fits alt a cmpA rm bound (items batch items' rest : list (item datum)) e :
  config_ok alt a -> total_cmp cmpA -> attr_align a = 1%N ->
  let cmp := compareRumItem alt cmpA in
  Forall (row_ok alt a) items -> Forall (row_ok alt a) batch ->
  ssorted cmp items -> ssorted cmp batch -> fits_page alt a items ->
  placeOnPage alt a cmpA rm bound items batch = Some (items', rest, e) ->
  fits_page alt a items'.
Proof.
  intros Hc HA Hal cmp Hi Hb Hsi Hsb Hfit Hpl.
  apply (page_batch_space alt a cmpA Hc HA rm bound items batch items' rest e Hal Hi Hb Hsi Hsb Hfit Hpl).
  (* rows of the result *)
  destruct batch as [|key btl]; [discriminate|].
  unfold placeOnPage, dataPlaceToPageLeaf in Hpl.
  destruct (findInLeafPage _ _ _ _) as [fd off].
  destruct (place_loop _ _ _ _ _ _ _ _ _ _ _) as [[[w r] e0]|] eqn:E; [|discriminate].
  injection Hpl as <- _ _.
  apply (place_loop_merge _ _ (cri_total alt cmpA HA)) in E as (used & Hu & -> & _).
  rewrite Forall_forall in Hi, Hb |- *. intros x Hx.
  assert (Hio : forall y, In y (firstn (off - 1) items) \/ In y (skipn (off - 1) items) -> In y items).
  { intros y Hy. rewrite <- (firstn_skipn (off - 1) items). apply in_app_iff. exact Hy. }
  apply in_app_iff in Hx as [Hx|Hx]; [apply Hi; auto|].
  apply merge_incl in Hx as [Hx|Hx]; [|apply Hi; auto].
  apply Hb. rewrite Hu. apply in_app_iff. left; exact Hx.
Qed.

Lemma page_single_fits alt a cmpA rm bound (items : list (item datum)) n :
  config_ok alt a -> total_cmp cmpA -> safe_align a ->
  let cmp := compareRumItem alt cmpA in
  Forall (row_ok alt a) items -> row_ok alt a n -> ssorted cmp items ->
  (forall x, In x items -> cmp x n <> 0%Z) ->
  (rm = true \/ forall x, In x (n :: items) -> (cmp x bound <= 0)%Z) ->
  fits_page alt a items ->
  dataIsEnoughSpaceLeaf alt a n (freeOnPage alt a items) = true ->
  exists items' e, placeOnPage alt a cmpA rm bound items [n] = Some (items', [], e) /\
    (forall x, In x items' <-> In x items \/ x = n) /\ fits_page alt a items'.
Proof.
  intros Hc HA Hal cmp Hi Hn Hs Hnf Hbd Hfit Hroom.
  destruct (page_single alt a cmpA Hc HA rm bound items n Hi Hn Hs Hnf Hbd Hroom) as (e & pre & olds & Hsp & Hpl & Hp & Ho).
  exists (pre ++ n :: olds), e. split; [exact Hpl|]. split.
  - intro x. rewrite Hsp, !in_app_iff. simpl. split; intros; intuition.
  - rewrite Hsp in *. eapply single_space; eauto.
Qed.

Lemma page_split_fits alt a cmpA (B : N) (items : list (item datum)) n btl l r rest :
  config_ok alt a -> total_cmp cmpA ->
  let cmp := compareRumItem alt cmpA in
  let batch := n :: btl in let off := snd (findOnPage alt cmpA items n) in
  items <> [] -> Forall (row_ok alt a) items -> Forall (row_ok alt a) batch ->
  ssorted cmp items -> ssorted cmp batch -> (forall x, In x items -> cmp x n <> 0%Z) ->
  fits_page alt a items -> (3 * B + 32 <= RumDataPageSize)%N ->
  (forall x, In x items \/ In x batch -> takes_at_most alt a B x) ->
  (attr_align a = 1%N \/ btl = []) ->
  splitPage alt a items batch off = Some (l, r, rest) ->
  fits_page alt a l /\ fits_page alt a r.
Proof. intros Hc HA cmp batch off. apply page_split_space; assumption. Qed.

Lemma page_split_nonempty alt a cmpA (B : N) (items : list (item datum)) n btl l r rest :
  config_ok alt a -> total_cmp cmpA ->
  let cmp := compareRumItem alt cmpA in
  let off := snd (findOnPage alt cmpA items n) in
  items <> [] -> Forall (row_ok alt a) items -> Forall (row_ok alt a) (n :: btl) ->
  ssorted cmp items -> (forall x, In x items -> cmp x n <> 0%Z) ->
  fits_page alt a items -> (3 * B + 32 <= RumDataPageSize)%N ->
  (forall x, In x items \/ In x (n :: btl) -> takes_at_most alt a B x) ->
  dataIsEnoughSpaceLeaf alt a n (freeOnPage alt a items) = false ->
  splitPage alt a items (n :: btl) off = Some (l, r, rest) ->
  l <> [] /\ r <> [] /\ exists used, used <> [] /\ n :: btl = used ++ rest /\
    (forall x, In x (l ++ r) <-> In x items \/ In x used) /\
    (length used = 1%nat \/ forall y, In y items -> (cmp y n < 0)%Z).
Proof.
  intros Hc HA cmp off Hne Hi Hnb Hs Hnf Hfit HB Hsmall Hroom Hsplit.
  assert (Hn : row_ok alt a n) by (inversion Hnb; assumption).
  pose proof (rows_items alt a _ Hnb) as Hrb.
  pose proof (Hattr alt a Hc) as HAT. pose proof (al_gt0 alt a Hc) as HAL.
  pose proof (rows_items alt a items Hi) as Hri.
  assert (Hal8 : (attr_al a <= 8)%N) by (pose proof HAT as H; unfold attr_ok, legal_align in H; lia).
  apply fits_run in Hfit; [|exact Hri].
  unfold dataIsEnoughSpaceLeaf, freeOnPage, leafFree in Hroom.
  set (sz := item_size alt a) in *. change (rumCheckPlaceToDataPageLeaf alt a n ip_min 0) with (sz n item_min 0%N) in Hroom.
  assert (HS : forall x p pos, In x (items ++ n :: btl) -> item_ok alt a p -> (sz x p pos <= pos + B)%N).
  { intros x p pos Hx Hp. unfold sz, item_size. apply in_app_iff in Hx.
    apply takes_run; [| |apply Hp].
    - rewrite Forall_forall in Hri, Hrb. destruct Hx as [Hx|Hx]; auto.
    - apply Hsmall. exact Hx. }
  assert (Hn0 : (sz n item_min 0 <= B)%N).
  { pose proof (HS n item_min 0%N ltac:(apply in_app_iff; right; left; reflexivity) (ok_item_min alt a)). lia. }
  assert (Hbig : (RumDataPageSize < run_size sz item_min items 0 + B + 8)%N).
  { destruct (N.leb_spec (sz n item_min 0 + 8)%N (RumDataPageSize - run_size sz item_min items 0)%N); [discriminate|]. lia. }
  destruct (find_split alt a cmpA HA items n Hs Hn Hnf) as (Ho & Hpre & Hpost). fold off in Ho, Hpre, Hpost.
  unfold splitPage, dataSplitPageLeaf in Hsplit. fold sz in Hsplit.
  destruct (Nat.leb_spec off (length items)) as [L|L].
  - set (pre := firstn (off - 1) items) in *. set (olds := skipn (off - 1) items) in *.
    assert (Hsp : items = pre ++ olds) by (symmetry; apply firstn_skipn).
    destruct (total_max sz item_min (pre ++ n :: olds) 0 0) as [total mx] eqn:Etm.
    assert (Ht : total = run_size sz item_min (pre ++ n :: olds) 0%N)
      by (rewrite <- (total_max_run sz _ item_min 0%N 0%N), Etm; reflexivity).
    destruct (split_at sz (pre ++ n :: olds) item_min 0 total) as [[l' r']|] eqn:E; [|discriminate].
    injection Hsplit as <- <- <-.
    assert (Hrp : Forall (item_ok alt a) pre /\ Forall (item_ok alt a) olds) by (rewrite Hsp in Hri; apply Forall_app in Hri; exact Hri).
    destruct Hrp as [Hrp Hro].
    assert (Hok : Forall (item_ok alt a) (pre ++ n :: olds)).
    { apply Forall_app. split; auto. constructor; [apply Hn|auto]. }
    assert (Hlt : (cmp (last pre item_min) n < 0)%Z).
    { destruct pre as [|y l0 _] using rev_ind; [apply (row_gt_min alt a); exact Hn|]. rewrite last_last.
      apply Hpre. apply in_app_iff. right; left; reflexivity. }
    assert (Holt : match olds with [] => True | o :: _ => (cmp n o < 0)%Z end).
    { destruct olds; [exact I|]. apply Hpost. left; reflexivity. }
    destruct (insert_total cmp item_min sz (item_ok alt a) (ok_item_min alt a) (isz_gt alt a) (isz_mono alt a HAT)
        (attr_al a) HAL (isz_per alt a HAT) (isz_prev alt a HAT cmpA) B pre n olds Hrp (proj1 Hn) Hro Hal8 Hlt Holt)
        as [_ Hlow].
    { apply HS; [apply in_app_iff; right; left; reflexivity|]. apply ok_last; [apply ok_item_min|auto]. }
    { intros. apply isz_restart; auto. }
    rewrite <- Hsp in Hlow.
    pose proof (split_at_app sz _ _ _ _ _ _ E) as [El Hl]. split; [exact Hl|]. split.
    2: { exists [n]. split; [discriminate|]. split; [reflexivity|]. split; [|left; reflexivity].
      intro x. rewrite <- El, Hsp, !in_app_iff. simpl. tauto. }
    eapply (split_right_nonempty cmp item_min sz (item_ok alt a) (ok_item_min alt a) (isz_gt alt a) (isz_mono alt a HAT)
        (attr_al a) HAL (isz_per alt a HAT) (isz_prev alt a HAT cmpA) B (pre ++ n :: olds) total); eauto.
    + intros x p pos Hx. apply HS. rewrite Hsp. rewrite !in_app_iff in *. simpl in *. tauto.
    + lia.
  - destruct (total_max sz item_min items 0 0) as [total mx] eqn:Etm.
    assert (Ht : total = run_size sz item_min items 0%N)
      by (rewrite <- (total_max_run sz _ item_min 0%N 0%N), Etm; reflexivity).
    pose proof (total_max_incr cmp sz (item_ok alt a) (isz_gt alt a) (isz_mono alt a HAT) (attr_al a) HAL (isz_per alt a HAT) (isz_prev alt a HAT cmpA) items item_min 0%N 0%N total mx Hri (ok_item_min alt a) Etm) as [_ Hinc].
    assert (Hmx : (mx <= B)%N).
    { clear - Etm HS Hri HAT. 
      assert (G : forall l prev t0 m0 t m, Forall (item_ok alt a) l -> item_ok alt a prev -> (forall x, In x l -> In x (items ++ n :: btl)) ->
        total_max sz prev l t0 m0 = (t, m) -> (m0 <= B)%N -> (m <= B)%N).
      { induction l as [|x l IH]; intros prev t0 m0 t m Hl Hp Hin; cbn [total_max].
        - intro H. injection H as <- <-. auto.
        - intros H Hm. apply Forall_cons_iff in Hl as [Hx Hl]. eapply IH in H; eauto.
          + intros y Hy. apply Hin. right; exact Hy.
          + pose proof (HS x prev t0 (Hin x (or_introl eq_refl)) Hp). lia. }
      eapply G; [exact Hri|apply ok_item_min| |exact Etm|lia]. intros x Hx. apply in_app_iff. left; exact Hx. }
    pose proof (HS n (last items item_min) total ltac:(apply in_app_iff; right; left; reflexivity)
                ltac:(apply ok_last; [apply ok_item_min|auto])) as Hnn.
    destruct (append_fit sz RumDataPageSize (n :: btl) (last items item_min) total mx) as [used total'] eqn:Eaf.
    destruct (append_fit_spec sz RumDataPageSize _ _ _ _ _ _ Eaf) as [Hu Ht'].
    assert (Hun : exists u', used = n :: u').
    { cbn [append_fit] in Eaf.
      replace (sz n (last items item_min) total + 2 * mx + 2 * 8 <? 2 * RumDataPageSize)%N with true in Eaf
        by (unfold RumDataPageSize in *; lia).
      destruct (append_fit sz RumDataPageSize btl n _ _) as [u' t']. injection Eaf as <- _. eauto. }
    destruct Hun as [u' Eu].
    assert (Hou : Forall (item_ok alt a) used) by (rewrite Hu in Hrb; apply Forall_app in Hrb; tauto).
    destruct (split_at sz (items ++ used) item_min 0 total') as [[l' r']|] eqn:E; [|discriminate].
    injection Hsplit as <- <- Erest.
    pose proof (split_at_app sz _ _ _ _ _ _ E) as [El Hl]. split; [exact Hl|]. split.
    2: { exists used. split; [rewrite Eu; discriminate|]. split; [rewrite <- Erest; exact Hu|]. split.
      - intro x. rewrite <- El, in_app_iff. tauto.
      - right. intros y Hy. apply Hpre. rewrite firstn_all2 by lia. exact Hy. }
    assert (Htot : total' = run_size sz item_min (items ++ used) 0%N).
    { rewrite (run_size_app sz), <- Ht. exact Ht'. }
    assert (Hoku : Forall (item_ok alt a) (items ++ used)) by (apply Forall_app; auto).
    pose proof (R_ge cmp sz (item_ok alt a) (isz_gt alt a) (isz_mono alt a HAT) (attr_al a) HAL (isz_per alt a HAT)
      (isz_prev alt a HAT cmpA) used (last items item_min) total Hou ltac:(apply ok_last; [apply ok_item_min|auto])) as Hge.
    rewrite <- Ht' in Hge.
    eapply (split_right_nonempty cmp item_min sz (item_ok alt a) (ok_item_min alt a) (isz_gt alt a) (isz_mono alt a HAT)
        (attr_al a) HAL (isz_per alt a HAT) (isz_prev alt a HAT cmpA) B (items ++ used) total'); eauto.
    + intros x p pos Hx. apply HS. rewrite Hu. rewrite !in_app_iff in *. tauto.
    + lia.
Qed.

(** ** boolean checkers used for witnesses *)
Definition legal_alignb (a : N) : bool := ((a =? 1) || (a =? 2) || (a =? 4) || (a =? 8))%N.
Definition datum_okb (a : attr) (d : datum) : bool :=
  match a, d with
  | AByVal n, DVal v => existsb (Nat.eqb n) [1; 2; 4; 8]%nat && (v <? 2 ^ (8 * N.of_nat n))%N
  | AFixed n al, DFix bs => legal_alignb al && (length bs =? n)%nat
  | AVar al pk, DVar V1 p => legal_alignb al && (nlen p + 1 <=? 127)%N
  | AVar al pk, DVar V4U p => legal_alignb al && (nlen p + 4 <? 2 ^ 30)%N
  | AVar al pk, DVar V4C p => legal_alignb al && (nlen p + 4 <? 2 ^ 30)%N
  | _, _ => false
  end.
Definition row_okb (alt : bool) (a : attr) (it : item datum) : bool :=
  ip_okb (ip it) && (negb alt || (off (ip it) <? 2 ^ 15)%N) &&
  match add it with None => true | Some d => datum_okb a d end && (1 <=? off (ip it))%N.
Lemma legal_alignb_ok a : legal_alignb a = true -> legal_align a.
Proof. unfold legal_alignb, legal_align. lia. Qed.
Lemma row_okb_ok alt a it : row_okb alt a it = true -> row_ok alt a it.
Proof.
  unfold row_okb, row_ok, item_ok. intro H. apply andb_prop in H as [H H4]. apply andb_prop in H as [H H3].
  apply andb_prop in H as [H1 H2]. split; [|lia]. split.
  - unfold ip_okb in H1. unfold ip_ok. lia.
  - split; [intros ->; simpl in H2; lia|]. destruct (add it) as [d|]; [|exact I].
    destruct a as [n|n al|al pk], d as [v|bs|f p]; cbn [datum_okb datum_ok] in *; try discriminate.
    + apply andb_prop in H3 as [Ha Hb]. split; [|lia]. unfold existsb in Ha. lia.
    + apply andb_prop in H3 as [Ha Hb]. split; [apply legal_alignb_ok; auto|lia].
    + destruct f; try discriminate; apply andb_prop in H3 as [Ha Hb]; split; try (apply legal_alignb_ok; auto); lia.
Qed.
Lemma items_okb alt a l : forallb (row_okb alt a) l = true -> Forall (item_ok alt a) l.
Proof. rewrite forallb_forall, Forall_forall. intros H x Hx. apply row_okb_ok. auto. Qed.
Lemma rows_okb alt a l : forallb (row_okb alt a) l = true -> Forall (row_ok alt a) l.
Proof. rewrite forallb_forall, Forall_forall. intros H x Hx. apply row_okb_ok. auto. Qed.
Fixpoint sortedb {T} (cmp : T -> T -> Z) (l : list T) : bool :=
  match l with
  | x :: (y :: _) as r => (cmp x y <? 0)%Z && sortedb cmp r
  | _ => true
  end.
Lemma sortedb_ok {T} (cmp : T -> T -> Z) l : total_cmp cmp -> sortedb cmp l = true -> ssorted cmp l.
Proof.
  intros OK. induction l as [|x r IH]; intro H; [constructor|].
  destruct r as [|y r]; [repeat constructor|]. cbn [sortedb] in H. apply andb_prop in H as [H1 H2].
  specialize (IH H2). constructor; [exact IH|]. constructor; [lia|].
  apply (ssorted_inv cmp) in IH as [_ Hf]. rewrite Forall_forall in Hf |- *. intros z Hz.
  apply (cmp_lt_trans _ OK _ y); [lia|auto].
Qed.
Definition fitsb (alt : bool) (a : attr) (l : list (item datum)) : bool :=
  match writePostingList alt a 0 l ip_min with Some bs => (nlen bs <=? RumDataPageSize)%N | None => false end.
Lemma fitsb_ok alt a l : fitsb alt a l = true <-> fits_page alt a l.
Proof.
  unfold fitsb, fits_page. destruct (writePostingList alt a 0 l ip_min) as [bs|].
  - split; [intro H; exists bs; split; [reflexivity|lia]|intros (b & E & H); injection E as <-; lia].
  - split; [discriminate|intros (b & E & _); discriminate].
Qed.
Lemma zero_total : total_cmp (fun _ _ : datum => 0%Z).
Proof. constructor; intros; lia. Qed.

Definition tz (b o : N) : item datum := mkItem (mkIp b o) (Some (DFix (repeat 0%N 12))).
Definition w8_items : list (item datum) :=
  mkItem (mkIp 0 64) None :: mkItem (mkIp 4194304 1) None :: mkItem (mkIp 4194304 2) None ::
  tz 6291456 64 :: map (fun i => tz (6291457 + N.of_nat i) 1) (seq 0 457).
Definition w8_n : item datum := tz 2097152 64.

Lemma align8_overrun :
  let a := AFixed 12 8 in let cmpA := fun x y : datum => 0%Z in
  exists items n items' e,
    Forall (row_ok false a) items /\ row_ok false a n /\
    ssorted (compareRumItem false cmpA) items /\ fits_page false a items /\
    dataIsEnoughSpaceLeaf false a n (freeOnPage false a items) = true /\
    placeOnPage false a cmpA true item_min items [n] = Some (items', [], e) /\
    ~ fits_page false a items'.
Proof.
  cbn zeta. exists w8_items, w8_n.
  destruct (placeOnPage false (AFixed 12 8) (fun _ _ => 0%Z) true item_min w8_items [w8_n]) as [[[i' r] e]|] eqn:E;
    [|vm_compute in E; discriminate].
  exists i', e. split; [apply rows_okb; vm_compute; reflexivity|].
  split; [apply row_okb_ok; vm_compute; reflexivity|].
  split; [apply sortedb_ok; [apply cri_total, zero_total|vm_compute; reflexivity]|].
  split; [apply fitsb_ok; vm_compute; reflexivity|].
  split; [vm_compute; reflexivity|].
  vm_compute in E. injection E as <- <- <-. split; [reflexivity|].
  rewrite <- fitsb_ok. vm_compute. discriminate.
Qed.

Definition mac (b o : N) : item datum := mkItem (mkIp b o) (Some (DFix (repeat 0%N 6))).
Definition wb_items : list (item datum) :=
  map (fun i => mac (1 + N.of_nat i) 1) (seq 0 919) ++ [mkItem (mkIp 930 64) None].
Definition wb_batch : list (item datum) :=
  [mkItem (mkIp 0 1) None; mkItem (mkIp 0 64) None; mkItem (mkIp 0 65) None; mkItem (mkIp 0 66) None].
Lemma aligned_batch_overrun :
  let a := AFixed 6 4 in let cmpA := fun x y : datum => 0%Z in
  exists items batch items' e,
    Forall (row_ok false a) items /\ Forall (row_ok false a) batch /\
    ssorted (compareRumItem false cmpA) items /\ ssorted (compareRumItem false cmpA) batch /\
    fits_page false a items /\
    match batch with n :: _ => dataIsEnoughSpaceLeaf false a n (freeOnPage false a items) = true | [] => False end /\
    placeOnPage false a cmpA true item_min items batch = Some (items', [], e) /\
    ~ fits_page false a items'.
Proof.
  cbn zeta. exists wb_items, wb_batch.
  destruct (placeOnPage false (AFixed 6 4) (fun _ _ => 0%Z) true item_min wb_items wb_batch) as [[[i' r] e]|] eqn:E;
    [|vm_compute in E; discriminate].
  exists i', e. split; [apply rows_okb; vm_compute; reflexivity|].
  split; [apply rows_okb; vm_compute; reflexivity|].
  split; [apply sortedb_ok; [apply cri_total, zero_total|vm_compute; reflexivity]|].
  split; [apply sortedb_ok; [apply cri_total, zero_total|vm_compute; reflexivity]|].
  split; [apply fitsb_ok; vm_compute; reflexivity|].
  split; [vm_compute; reflexivity|].
  vm_compute in E. injection E as <- <- <-. split; [reflexivity|].
  rewrite <- fitsb_ok. vm_compute. discriminate.
Qed.

Definition txt (len b : N) : item datum := mkItem (mkIp b 1) (Some (DVar V4U (repeat 120%N (N.to_nat len)))).
Definition wl_items : list (item datum) := [txt 3600 0; mkItem (mkIp 2 1) None].
Lemma large_value_overrun :
  let a := AVar 4 true in let cmpA := fun x y : datum => 0%Z in
  exists items n l r, Forall (row_ok false a) items /\ row_ok false a n /\
    ssorted (compareRumItem false cmpA) items /\ fits_page false a items /\
    fits_page false a [n] /\
    dataIsEnoughSpaceLeaf false a n (freeOnPage false a items) = false /\
    splitPage false a items [n] (snd (findOnPage false cmpA items n)) = Some (l, r, []) /\
    ~ fits_page false a l.
Proof.
  cbn zeta. exists wl_items, (txt 4000 1), [txt 3600 0; txt 4000 1], [mkItem (mkIp 2 1) None].
  split; [apply rows_okb; vm_compute; reflexivity|].
  split; [apply row_okb_ok; vm_compute; reflexivity|].
  split; [apply sortedb_ok; [apply cri_total, zero_total|vm_compute; reflexivity]|].
  split; [apply fitsb_ok; vm_compute; reflexivity|].
  split; [apply fitsb_ok; vm_compute; reflexivity|].
  split; [vm_compute; reflexivity|].
  split; [vm_compute; reflexivity|].
  rewrite <- fitsb_ok. vm_compute. discriminate.
Qed.

Definition big_page' (n : nat) : list (item datum) :=
  map (fun i => mkItem (mkIp (N.of_nat i) 1) None) (seq 0 n).
Lemma C08_example :
  let cmpA := fun x y : datum => 0%Z in
  config_ok false (AVar 4 true) /\ safe_align (AVar 4 true) /\ ssorted (compareRumItem false cmpA) (big_page' 500) /\
  Forall (row_ok false (AVar 4 true)) (big_page' 500) /\
  dataIsEnoughSpaceLeaf false (AVar 4 true) (mkItem (mkIp 20 7) None) (freeOnPage false (AVar 4 true) (big_page' 500)) = true /\
  exists items' e, placeOnPage false (AVar 4 true) cmpA false (mkItem (mkIp 1000 1) None) (big_page' 500)
    [mkItem (mkIp 20 7) None] = Some (items', [], e) /\ length items' = 501%nat.
Proof.
  cbn zeta. split; [split; [right; right; left; reflexivity|discriminate]|].
  split; [simpl; lia|]. split; [apply sortedb_ok; [apply cri_total, zero_total|vm_compute; reflexivity]|].
  split; [apply rows_okb; vm_compute; reflexivity|]. split; [vm_compute; reflexivity|].
  eexists. eexists. split; [vm_compute; reflexivity|reflexivity].
Qed.
Lemma C09_example :
  let cmpA := fun x y : datum => 0%Z in
  let n := mkItem (mkIp 1 1) None in
  let items := map (fun i => mkItem (mkIp (2 * N.of_nat i) 1) None) (seq 0 700) in
  ssorted (compareRumItem false cmpA) items /\
  exists l r, splitPage false (AVar 4 true) items [n] (snd (findOnPage false cmpA items n)) = Some (l, r, []) /\
    (length l + length r = 701)%nat /\ (length r <> 0)%nat.
Proof.
  cbn zeta. split; [apply sortedb_ok; [apply cri_total, zero_total|vm_compute; reflexivity]|].
  eexists. eexists. split; [vm_compute; reflexivity|]. split; [reflexivity|discriminate].
Qed.
