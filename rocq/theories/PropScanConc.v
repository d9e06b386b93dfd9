(** C51: scanning a posting tree while rows are inserted into it. *)
From Verif Require Import Base Ord OrdProof Codec CodecSpec LeafPage LeafSpec LeafCodec LeafCodecProof BTree BTreeInv BTreeFind BTreeIns PostingTree PostingTreeProof
  PostingTreeSpec PropTreeProof ScanEntry ScanEntryProof ScanConc ScanConcSpec ScanConcTree ScanConcProof.
From Coq Require Import List NArith ZArith Bool Arith Lia.
Import ListNotations.

Section Posting.
  Variables (alt : bool) (a : attr) (cmpA : datum -> datum -> Z).
  Hypothesis Hcfg : config_ok alt a.
  Hypothesis HA : total_cmp cmpA.
  Hypothesis Hsafe : safe_align a.
  Notation cmp := (compareRumItem alt cmpA).
  Let OK : total_cmp cmp := cri_total alt cmpA HA.
  Notation TInv := (Inv cmp pt_ifit false (pt_ok alt a) (fits_page alt a) true).
  Notation Grow := (grows cmp pt_ifit false (pt_ok alt a) (fits_page alt a) (@incl row) true 0).

  Lemma insert_grows build batch st G : TInv st 0 G -> valid_batch alt a cmpA batch ->
    exists tr lost G', ptInsert alt a cmpA build st batch = Some (tr, lost) /\ Grow st G tr G'.
  Proof.
    intros HI (Hs & Ho & Hb). unfold ptInsert, insertAll.
    set (multi := (attr_align a =? 1)%N).
    assert (Hm : multi = true -> attr_align a = 1%N) by (unfold multi; intro H; apply N.eqb_eq; exact H).
    unshelve epose proof (insertItems_grows cmp OK pt_ifit false (pt_ok alt a) (fits_page alt a) (fun _ => True) (@p_bound _) item_min pt_ienough (pt_locate alt cmpA)
      (findOnPage alt cmpA) (pt_leafEnough alt a) (pt_leafPlace alt a cmpA) (splitPage alt a) (pt_isep build) pt_rkey multi
      _ _ _ _ _ _ _ _ _ true 0 (S (length batch)) batch st G HI Hs Ho _ _) as K.
    - apply pt_kok_ok.
    - exact pt_ienough_ok.
    - apply pt_isep_ok.
    - exact pt_iroot_ok.
    - exact (p_bound_ok cmp OK _ _ _ _).
    - apply dataLocate_ok. exact OK.
    - exact (pt_find_ok alt a cmpA HA).
    - apply pt_place_ok; auto.
    - apply pt_split_ok; auto.
    - destruct Hb as [H|H]; [right; exact H|left]. split; [|reflexivity]. unfold multi. apply N.eqb_eq. exact H.
    - apply Nat.lt_succ_diag_r.
    - destruct K as (tr & lost & done & todo & Hi & _ & _ & _ & G' & _ & _ & _ & Hg). exists tr, lost, G'. split; [exact Hi|exact Hg].
  Qed.
  Lemma inserting_grows st later : inserting alt a cmpA st later -> forall G, TInv st 0 G -> exists G', Grow st G later G'.
  Proof.
    induction 1 as [st|st build batch tr lost n later Hb Hi Hl IH]; intros G HI; [exists G; constructor|].
    destruct (insert_grows build batch st G HI Hb) as (tr' & lost' & G' & Hi' & Hg). rewrite Hi in Hi'. injection Hi' as <- <-.
    destruct (grows_firstn _ _ _ _ _ _ _ _ n _ _ _ _ Hg) as [Gn Hn]. destruct (IH Gn) as [G2 H2].
    - exact (grows_inv _ _ _ _ _ _ _ _ _ _ _ _ Hn HI).
    - exists G2. eapply grows_app; eauto.
  Qed.
  Lemma scan_contents tight st G : Inv cmp pt_ifit false (pt_ok alt a) (fits_page alt a) tight st 0 G -> ptScan st = Some (contents st G).
  Proof. intro HI. unfold ptScan. eapply (scan_spec cmp OK); eauto. Qed.

  (** The moments of a scan. *)
  Lemma scan_moments st acked tried later sched : reaches alt a cmpA st acked tried -> inserting alt a cmpA st later -> observed (st :: later) sched ->
    exists G idx N G', moments cmp pt_ifit false (pt_ok alt a) (fits_page alt a) true 0 (@incl row) sched G idx N /\
      TInv (last later st) 0 G' /\ (forall t, incl (contents (sched t) (G t)) (contents (last later st) G')) /\ forall t, In (sched t) (st :: later).
  Proof.
    intros Hr Hi Ho. destruct (reaches_inv alt a cmpA Hcfg HA Hsafe st acked tried Hr) as (G0 & HI & _).
    destruct (inserting_grows st later Hi G0 HI) as [G' Hg].
    destruct (moments_of cmp OK pt_ifit false (pt_ok alt a) (fits_page alt a) true 0 (@incl row) (@incl_refl row) (@incl_tran row) st G0 later G' sched HI Hg Ho)
      as (G & idx & N & HM & _ & _ & H).
    exists G, idx, N, G'. split; [exact HM|]. split; [exact (proj1 (proj1 (H 0)))|]. split; intro t; apply H.
  Qed.
  Lemma row_valid x : pt_ok alt a x -> ip_valid (ip x) = true.
  Proof. intros ((_ & H) & _). unfold ip_valid. apply negb_true_iff, N.eqb_neq. lia. Qed.
End Posting.

Lemma settled_stay alt a cmpA (sched : nat -> list (page row)) G idx N :
  moments (compareRumItem alt cmpA) pt_ifit false (pt_ok alt a) (fits_page alt a) true 0 (@incl row) sched G idx N ->
  settled sched ->
  forall t t' b, t <= t' -> at_ (G t) 0 b -> at_ (G t') 0 b /\ slo (G t') b = slo (G t) b.
Proof.
  intros M Hs t t' b Ht Hat. destruct (Nat.eq_dec b 0) as [->|Hn]; [|exact (m_evolve _ _ _ _ _ _ _ _ _ _ _ _ M t t' Ht _ _ Hat Hn)].
  pose proof (m_inv _ _ _ _ _ _ _ _ _ _ _ _ M) as HI.
  assert (L : forall u, leaf_root (sched u) = (top (G u) =? 0)).
  { intro u. pose proof (at_root _ _ _ _ _ _ _ _ _ (HI u)) as Hr. destruct (page_get _ _ _ _ _ _ _ _ _ (HI u) _ _ Hr) as [pg Hg].
    destruct (BTreeFind.page_facts _ _ _ _ _ _ _ _ _ (HI u) _ _ _ Hr Hg) as (Hl & _). unfold leaf_root. unfold row in *. rewrite Hg. exact Hl. }
  assert (T0 : 0 = top (G t)) by exact (at_inj _ _ _ _ _ _ _ _ _ (HI t) _ _ _ Hat (at_root _ _ _ _ _ _ _ _ _ (HI t))).
  assert (E : leaf_root (sched t') = true).
  { apply Hs. destruct (leaf_root (sched 0)) eqn:E0; [reflexivity|]. exfalso. rewrite L in E0. apply Nat.eqb_neq in E0.
    destruct (level_nonempty _ _ _ _ _ _ _ _ _ (HI 0) 0 ltac:(lia)) as (c & L0 & HL0). assert (Hc : at_ (G 0) 0 c) by (exists (c :: L0); split; [exact HL0|left; reflexivity]).
    assert (Hc0 : c <> 0) by (apply (at_not_root _ _ _ _ _ _ _ _ _ (HI 0) 0 c Hc); lia).
    destruct (m_evolve _ _ _ _ _ _ _ _ _ _ _ _ M 0 t ltac:(lia) _ _ Hc Hc0) as [Hc' _]. rewrite T0 in Hc'.
    apply Hc0. exact (at_top _ _ _ _ _ _ _ _ _ (HI t) _ Hc'). }
  rewrite L in E. apply Nat.eqb_eq in E.
  split; [pose proof (at_root _ _ _ _ _ _ _ _ _ (HI t')) as Hr; rewrite E in Hr; exact Hr|].
  rewrite (root_slo _ _ _ _ _ _ _ _ _ (HI t)), (root_slo _ _ _ _ _ _ _ _ _ (HI t')). reflexivity.
Qed.

(** A query with one key whose rows are in a posting tree reads the tree page by page while insertions into
    that tree go on (one insertion at a time, each logged change visible at once, any of them cut short).
    Whatever states its page reads see, the scan comes to an end without error, and the rows the query gets are
    in ascending order without repetition, include every row that was in the tree when the scan read its first
    page, and are all in the tree at the end - provided the tree, if it is one page at the first page read, is
    still one page at the later ones. *)
Theorem C51_scan_during_insertions_partial useAlt addTo att a cmpA st acked tried later sched rows0 rowsN junk :
  let alt := altOf useAlt addTo att in
  config_ok alt a -> total_cmp cmpA -> safe_align a ->
  reaches alt a cmpA st acked tried -> inserting alt a cmpA st later -> observed (st :: later) sched -> settled sched ->
  ptScan (sched 0) = Some rows0 -> rows0 <> [] -> ptScan (last later st) = Some rowsN ->
  exists fuel c n out c', startC sched fuel att junk = Some c /\
    runC useAlt addTo cmpA sched n c = (out, Some c') /\ e_fin (c_ent c') = true /\
    let got := regular useAlt addTo cmpA att None out in
    ssorted (compareRumItem alt cmpA) got /\ incl rows0 got /\ incl got rowsN.
Proof.
  intros alt Hcfg HA Hsafe Hr Hi Ho Hs H0 Hne HN.
  destruct (scan_moments alt a cmpA Hcfg HA Hsafe st acked tried later sched Hr Hi Ho) as (G & idx & N & G' & M & HI' & Hend & Hin).
  pose proof (scan_contents alt a cmpA HA true _ _ HI') as E'. rewrite HN in E'. injection E' as ->.
  pose proof (scan_contents alt a cmpA HA true _ _ (m_inv _ _ _ _ _ _ _ _ _ _ _ _ M 0)) as E0. rewrite H0 in E0. injection E0 as ->.
  destruct (scan_complete useAlt addTo cmpA HA att pt_ifit false (pt_ok alt a) (fits_page alt a) (row_valid alt a) sched G idx N M
    (settled_stay alt a cmpA sched G idx N M Hs) (contents (last later st) G') (contents (sched 0) (G 0)) Hend
    (fun t => m_rows _ _ _ _ _ _ _ _ _ _ _ _ M 0 t ltac:(lia)) junk Hne)
    as (fuel & c & n & out & c' & Hst & Hrun & Hf & Hincl & Hall & Hsort).
  exists fuel, c, n, out, c'. split; [exact Hst|]. split; [exact Hrun|]. split; [exact Hf|]. cbv zeta.
  split; [exact Hsort|]. split; [exact Hall|]. intros x Hx. apply Hincl. eapply regular_incl. exact Hx.
Qed.

(** A descent for a row, its page reads made at any moments while insertions go on, comes to a leaf without
    error; the row is on that leaf exactly when it is in the tree at the moment the leaf is read - in
    particular when it was there before the descent began. *)
Theorem C51_lookup_during_insertions_partial alt a cmpA st acked tried later sched rows0 x :
  config_ok alt a -> total_cmp cmpA -> safe_align a ->
  reaches alt a cmpA st acked tried -> inserting alt a cmpA st later -> observed (st :: later) sched ->
  storable alt a x -> ptScan (sched 0) = Some rows0 ->
  exists fuel t b pg rows,
    findLeafC (compareRumItem alt cmpA) (@p_bound _) (pt_locate alt cmpA) sched fuel 0 0 0 x = DLeaf t b /\
    get (sched t) b = Some pg /\ ptScan (sched t) = Some rows /\
    (fst (findOnPage alt cmpA (p_items pg) x) = true <-> exists y, In y rows /\ compareRumItem alt cmpA y x = 0%Z) /\
    ((exists y, In y rows0 /\ compareRumItem alt cmpA y x = 0%Z) -> fst (findOnPage alt cmpA (p_items pg) x) = true).
Proof.
  intros Hcfg HA Hsafe Hr Hi Ho Hx H0. pose proof (cri_total alt cmpA HA) as OK.
  destruct (scan_moments alt a cmpA Hcfg HA Hsafe st acked tried later sched Hr Hi Ho) as (G & idx & N & G' & M & _).
  pose proof (m_inv _ _ _ _ _ _ _ _ _ _ _ _ M) as HI.
  pose proof (scan_contents alt a cmpA HA true _ _ (HI 0)) as E0. rewrite H0 in E0. injection E0 as ->.
  destruct (findLeafC_root _ OK _ _ _ _ _ _ (@p_bound _) (pt_locate alt cmpA) (p_bound_ok _ OK _ _ _ _) (dataLocate_ok _ OK false) _ sched G idx N M x)
    as (fuel & t & b & Hf & Hat & Hrg).
  destruct (page_get _ _ _ _ _ _ _ _ _ (HI t) _ _ Hat) as [pg Hg].
  exists fuel, t, b, pg, (contents (sched t) (G t)). split; [exact Hf|]. split; [exact Hg|]. split; [exact (scan_contents alt a cmpA HA true _ _ (HI t))|].
  destruct (leaf_items _ _ _ _ _ _ _ _ _ (HI t) _ _ Hat Hg) as (Hs & Hok & _).
  assert (K : fst (findOnPage alt cmpA (p_items pg) x) = true <-> exists y, In y (contents (sched t) (G t)) /\ compareRumItem alt cmpA y x = 0%Z).
  { rewrite (pt_find_ok alt a cmpA HA _ _ Hs Hok Hx). apply (found_in_leaf _ OK _ _ _ _ _ _ _ _ (HI t) _ _ _ Hat Hg Hrg). }
  split; [exact K|]. intros (y & Hy & E). apply K. exists y. split; [|exact E]. exact (m_rows _ _ _ _ _ _ _ _ _ _ _ _ M 0 t ltac:(lia) y Hy).
Qed.

(** ** the root page turning into an internal page *)
Lemma hang_run {A} useAlt addTo (cmpA : A -> A -> Z) (sched : nat -> list (page (item A))) :
  (forall t, 1 <= t -> exists pg, get (sched t) 0 = Some pg /\ p_leaf pg = false) ->
  forall n t e, 1 <= t -> e_fin e = false ->
  exists c', runC useAlt addTo cmpA sched n (mkC t 0 e) = (firstn n (rest e) ++ repeat (last (rest e) (e_cur e)) (n - length (rest e)), Some c') /\
    e_fin (c_ent c') = false.
Proof.
  intro Hs. induction n as [|n IH]; intros t e Ht Hf.
  - exists (mkC t 0 e). split; [cbn; reflexivity|exact Hf].
  - cbn [runC c_ent]. rewrite Hf. unfold turn. cbn [c_ent c_time c_blk]. rewrite at_off_rest. destruct (rest e) as [|y r] eqn:Er.
    + destruct (Hs t Ht) as (pg & Hg & Hl). rewrite Hg, Hl. cbn [negb c_ent]. rewrite Hf.
      destruct (IH (S t) e ltac:(lia) Hf) as (c' & Hr & Hf'). rewrite Hr, Er. exists c'. split; [|exact Hf']. rewrite Nat.sub_0_r, firstn_nil. reflexivity.
    + cbn [c_ent set_cur e_fin e_cur]. rewrite Hf. pose proof (rest_next e y r Er) as Er'.
      destruct (IH t (set_cur e y (e_off e + 1)) Ht Hf) as (c' & Hr & Hf'). rewrite Er' in Hr.
      change (mkC t 0 (set_cur e y (e_off e + 1))) with (mkC t 0 (set_cur e y (e_off e + 1))) in Hr. unfold set_cur in *. rewrite Hr.
      exists c'. split; [|exact Hf']. cbn [firstn app e_cur length]. f_equal. f_equal.
      replace (S n - S (length r)) with (n - length r) by lia. f_equal. f_equal.
      destruct r as [|b r]; [reflexivity|]. cbn [last]. clear. revert b. induction r as [|d r IHr]; intro b; [reflexivity|]. exact (IHr d).
Qed.

(** When the posting tree is one page as the scan begins and that page becomes internal before the scan reads
    it again, the scan never ends: it gets the rows of the page, then the last of them again and again. *)
Theorem C51_root_split_never_ends useAlt addTo cmpA att (sched : nat -> list (page row)) junk pg :
  get (sched 0) 0 = Some pg -> p_leaf pg = true -> p_items pg <> [] ->
  (forall t, 1 <= t -> exists pg', get (sched t) 0 = Some pg' /\ p_leaf pg' = false) ->
  forall fuel, exists c, startC sched (S fuel) att junk = Some c /\
    forall n, exists c', runC useAlt addTo cmpA sched n c =
      (firstn n (p_items pg) ++ repeat (last (p_items pg) junk) (n - length (p_items pg)), Some c') /\ e_fin (c_ent c') = false.
Proof.
  intros Hg Hl Hne Hs fuel. unfold row in *. unfold startC. cbn [leftmostC]. rewrite Hg, Hl, Hg. eexists. split; [reflexivity|]. intro n.
  set (e := mkEntry att Mem (p_items pg) 0 (nth 0 (p_items pg) junk) false 0 (fun _ => 0)).
  destruct (hang_run useAlt addTo cmpA sched Hs n 1 e ltac:(lia) eq_refl) as (c' & Hr & Hf). exists c'. split; [|exact Hf]. rewrite Hr.
  change (rest e) with (p_items pg). f_equal. f_equal. f_equal.
  change (e_cur e) with (nth 0 (p_items pg) junk). destruct (p_items pg) as [|y l]; [congruence|]. cbn [nth].
  clear. revert y. induction l as [|z l IH]; intro y; [reflexivity|]. cbn [last] in *. destruct l as [|w l]; [reflexivity|]. exact (IH y).
Qed.

(** ** concrete trees *)
Definition three : list (page row) := createPostingTree (map bigrow [1; 2; 3]%N).
Definition trace_of (st : list (page row)) (i : N) : list (list (page row)) :=
  match ptInsert false big_attr zcmp false st [bigrow i] with Some (tr, _) => tr | None => [] end.
Definition wide : list (page row) :=
  match ptRun false big_attr zcmp (createPostingTree []) (singles [10; 20; 30; 40; 5]%N) with Some st => st | None => [] end.
(** [later]: states of the insertions of 6 and 7 into [wide] *)
Definition two_more (st : list (page row)) : list (list (page row)) :=
  let t1 := trace_of st 6 in t1 ++ trace_of (last t1 st) 7.
(** the first [k] page reads see [st], all others the last state of [later] *)
Definition switch (k : nat) (st : list (page row)) (later : list (list (page row))) (t : nat) : list (page row) :=
  if t <? k then st else last later st.

Lemma switch_observed k st later : observed (st :: later) (switch k st later).
Proof.
  exists (fun t => if t <? k then 0 else length later). split.
  - intros t t' L. destruct (Nat.ltb_spec t k), (Nat.ltb_spec t' k); lia.
  - intro t. unfold switch. destruct (t <? k); [reflexivity|].
    clear. revert st. induction later as [|s tr IH]; intro st; [reflexivity|]. rewrite last_cons_eq. exact (IH s).
Qed.
Lemma trace_inserting st i later : (i < 2 ^ 32)%N -> trace_of st i <> [] -> inserting false big_attr zcmp (last (trace_of st i) st) later ->
  inserting false big_attr zcmp st (trace_of st i ++ later).
Proof.
  intros Hi Hne Hl. unfold trace_of in *. destruct (ptInsert _ _ _ _ _ _) as [[tr lost]|] eqn:E; [|congruence].
  rewrite <- (firstn_all tr) at 1. econstructor; [apply bigrow_valid; exact Hi|exact E|]. rewrite firstn_all. exact Hl.
Qed.
Lemma three_reaches : reaches false big_attr zcmp three (map bigrow [1; 2; 3]%N) (map bigrow [1; 2; 3]%N).
Proof.
  apply reaches_new.
  - cbn [map]. repeat (apply ssorted_cons; [|repeat constructor]). apply ssorted_nil.
  - cbn [map]. repeat (apply Forall_cons; [apply bigrow_storable; reflexivity|]). apply Forall_nil.
  - eexists. split; [vm_compute; reflexivity|vm_compute; discriminate].
Qed.
Lemma three_trace : exists s, trace_of three 4 = [s] /\ leaf_root s = false.
Proof.
  assert (H : match trace_of three 4 with [s] => negb (leaf_root s) | _ => false end = true) by (vm_compute; reflexivity).
  destruct (trace_of three 4) as [|s [|s2 l]]; try discriminate. exists s. split; [reflexivity|]. apply negb_true_iff. exact H.
Qed.
(** Rows 1, 2 and 3 fill the only page of the tree; the scan copies it; row 4 is inserted, which splits the page;
    no number of turns ends the scan. *)
Theorem C51_root_split_refuted : exists st later sched rows0,
  config_ok false big_attr /\ total_cmp zcmp /\ safe_align big_attr /\
  reaches false big_attr zcmp st rows0 rows0 /\ inserting false big_attr zcmp st later /\ observed (st :: later) sched /\
  ptScan (sched 0) = Some rows0 /\ rows0 <> [] /\
  forall att junk fuel c n out c', startC sched fuel att junk = Some c -> runC false 0 zcmp sched n c = (out, Some c') -> e_fin (c_ent c') = false.
Proof.
  destruct three_trace as (s & Et & Hs). exists three, [s], (switch 1 three [s]), (map bigrow [1; 2; 3]%N).
  destruct C12_example as (Hc & Hz & Ha & _). split; [exact Hc|]. split; [exact Hz|]. split; [exact Ha|]. split; [exact three_reaches|].
  split; [|split; [apply switch_observed|split; [reflexivity|split; [discriminate|]]]].
  - rewrite <- Et, <- (app_nil_r (trace_of three 4)). apply trace_inserting; [reflexivity|rewrite Et; discriminate|constructor].
  - intros att junk fuel c n out c' Hst Hrun. destruct fuel as [|fuel]; [discriminate|].
    destruct (C51_root_split_never_ends false 0 zcmp att (switch 1 three [s]) junk (mkPage true (map bigrow [1; 2; 3]%N) [] item_min None None false)
      eq_refl eq_refl ltac:(discriminate)) with (fuel := fuel) as (c0 & Hst0 & Hn).
    + intros t Ht. unfold switch. replace (t <? 1) with false by (symmetry; apply Nat.ltb_ge; lia). cbn [last]. unfold leaf_root in Hs.
      destruct (get s 0) as [pg|] eqn:Eg.
      * exists pg. split; [reflexivity|exact Hs].
      * exfalso. assert (K : match trace_of three 4 with [s] => match get s 0 with Some _ => true | None => false end | _ => false end = true) by (vm_compute; reflexivity).
        rewrite Et, Eg in K. discriminate.
    + rewrite Hst in Hst0. injection Hst0 as <-. destruct (Hn n) as (c2 & Hr & Hf). rewrite Hrun in Hr. injection Hr as _ ->. exact Hf.
Qed.

Lemma wide_reaches : reaches false big_attr zcmp wide (map bigrow [10; 20; 30; 40; 5]%N) (map bigrow [10; 20; 30; 40; 5]%N).
Proof.
  assert (H : match ptRun false big_attr zcmp (createPostingTree []) (singles [10; 20; 30; 40; 5]%N) with Some _ => true | None => false end = true)
    by (vm_compute; reflexivity).
  assert (H0 : reaches false big_attr zcmp (createPostingTree []) [] []).
  { apply reaches_new; [constructor|constructor|]. exists []. split; [reflexivity|vm_compute; discriminate]. }
  assert (E : ptRun false big_attr zcmp (createPostingTree []) (singles [10; 20; 30; 40; 5]%N) = Some wide)
    by (unfold wide; destruct (ptRun _ _ _ _ _); [reflexivity|discriminate]).
  refine (reaches_run _ _ _ _ _ H0 _ E). unfold singles. rewrite Forall_map. repeat (apply Forall_cons; [apply bigrow_valid; reflexivity|]). apply Forall_nil.
Qed.
Lemma wide_inserting : inserting false big_attr zcmp wide (two_more wide).
Proof.
  assert (H : match trace_of wide 6 with [] => false | _ => true end = true) by (vm_compute; reflexivity).
  assert (H2 : match trace_of (last (trace_of wide 6) wide) 7 with [] => false | _ => true end = true) by (vm_compute; reflexivity).
  unfold two_more. cbv zeta. apply trace_inserting; [reflexivity|destruct (trace_of wide 6); [discriminate H|discriminate]|].
  rewrite <- (app_nil_r (trace_of (last _ _) 7)). apply trace_inserting; [reflexivity|destruct (trace_of (last (trace_of wide 6) wide) 7); [discriminate H2|discriminate]|constructor].
Qed.
Lemma wide_settled : settled (switch 2 wide (two_more wide)).
Proof.
  intro H. exfalso. assert (H' : leaf_root wide = false) by (vm_compute; reflexivity). change (leaf_root wide = true) in H. rewrite H' in H. discriminate H.
Qed.
(** The hypotheses of the theorems hold for it. *)
Lemma C51_hypotheses_met : exists rows0 rowsN,
  config_ok false big_attr /\ total_cmp zcmp /\ safe_align big_attr /\
  reaches false big_attr zcmp wide (map bigrow [10; 20; 30; 40; 5]%N) (map bigrow [10; 20; 30; 40; 5]%N) /\
  inserting false big_attr zcmp wide (two_more wide) /\ observed (wide :: two_more wide) (switch 2 wide (two_more wide)) /\
  settled (switch 2 wide (two_more wide)) /\ ptScan (switch 2 wide (two_more wide) 0) = Some rows0 /\ rows0 <> [] /\
  ptScan (last (two_more wide) wide) = Some rowsN /\ length rows0 = 5 /\ length rowsN = 7 /\ storable false big_attr (bigrow 20).
Proof.
  assert (H : match ptScan wide, ptScan (last (two_more wide) wide) with Some l, Some l' => (length l =? 5) && (length l' =? 7) | _, _ => false end = true)
    by (vm_compute; reflexivity).
  change (switch 2 wide (two_more wide) 0) with wide.
  destruct (ptScan wide) as [l|]; [|discriminate H]. destruct (ptScan (last (two_more wide) wide)) as [l'|]; [|discriminate H].
  apply andb_true_iff in H as [H1 H2]. apply Nat.eqb_eq in H1, H2.
  exists l, l'. destruct C12_example as (Hc & Hz & Ha & _). split; [exact Hc|]. split; [exact Hz|]. split; [exact Ha|].
  split; [exact wide_reaches|]. split; [exact wide_inserting|]. split; [apply switch_observed|]. split; [exact wide_settled|].
  split; [reflexivity|]. split; [destruct l; [discriminate H1|discriminate]|]. split; [reflexivity|]. split; [exact H1|]. split; [exact H2|].
  apply bigrow_storable. reflexivity.
Qed.
(** The rows the index scan reads may repeat, going back, when a page is split between two reads: with more than
    one row on the new page, the search for the place to continue (rumget.c:1002-1012) compares the wrong way
    round.  A query that takes the rows as they come (the fast scan) gets rows 10 and 20 twice. *)
Theorem C51_rows_repeat_refuted : exists c n out c',
  reaches false big_attr zcmp wide (map bigrow [10; 20; 30; 40; 5]%N) (map bigrow [10; 20; 30; 40; 5]%N) /\
  inserting false big_attr zcmp wide (two_more wide) /\ observed (wide :: two_more wide) (switch 2 wide (two_more wide)) /\
  settled (switch 2 wide (two_more wide)) /\
  startC (switch 2 wide (two_more wide)) 9 1 item_min = Some c /\
  runC false 0 zcmp (switch 2 wide (two_more wide)) n c = (out, Some c') /\ e_fin (c_ent c') = true /\
  map (fun r => blk (ip r)) out = [5; 10; 20; 10; 20; 30; 40]%N.
Proof.
  assert (H : match startC (switch 2 wide (two_more wide)) 9 1 item_min with
    | Some c => match runC false 0 zcmp (switch 2 wide (two_more wide)) 20 c with
       | (out, Some c') => e_fin (c_ent c') && (if list_eq_dec N.eq_dec (map (fun r => blk (ip r)) out) [5; 10; 20; 10; 20; 30; 40]%N then true else false)
       | _ => false end
    | None => false end = true) by (vm_compute; reflexivity).
  destruct (startC _ 9 1 item_min) as [c|]; [|discriminate H]. exists c, 20.
  destruct (runC _ _ _ _ 20 c) as [out [c'|]]; [|discriminate H]. exists out, c'. apply andb_true_iff in H as [H1 H2].
  destruct (list_eq_dec N.eq_dec _ _) as [E|]; [|discriminate H2].
  split; [exact wide_reaches|]. split; [exact wide_inserting|]. split; [apply switch_observed|]. split; [exact wide_settled|].
  split; [reflexivity|]. split; [reflexivity|]. split; [exact H1|exact E].
Qed.

Print Assumptions C51_scan_during_insertions_partial.
Print Assumptions C51_lookup_during_insertions_partial.
Print Assumptions C51_root_split_never_ends.
Print Assumptions C51_root_split_refuted.
Print Assumptions C51_rows_repeat_refuted.
Print Assumptions C51_hypotheses_met.
