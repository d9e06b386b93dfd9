(** C51 with writers that overlap: scans and lookups of a posting tree while several sessions insert into it. *)
From Verif Require Import Base Ord OrdProof Codec CodecSpec LeafPage LeafSpec LeafCodec LeafCodecProof BTree BTreeInv BTreeFind BTreeIns BTreeConc BTreeConcInv BTreeConcProof
  PostingTree PostingTreeProof PostingTreeSpec PropTreeProof PostingTreeConc PostingTreeConcSpec PostingTreeConcProof
  ScanEntry ScanEntryProof ScanConc ScanConcSpec ScanConcTree ScanConcProof PropScanConc.
From Coq Require Import List NArith ZArith Bool Arith Lia.
Import ListNotations.

Section Overlap.
  Variables (alt : bool) (a : attr) (cmpA : datum -> datum -> Z).
  Hypothesis Hcfg : config_ok alt a.
  Hypothesis HA : total_cmp cmpA.
  Hypothesis Hsafe : safe_align a.
  Variable build : bool.
  Notation cmp := (compareRumItem alt cmpA).
  Let OK : total_cmp cmp := cri_total alt cmpA HA.
  Notation TInv := (Inv cmp pt_ifit false (pt_ok alt a) (fits_page alt a) true).
  Notation step := (sysStep cmp (@p_bound _) pt_ienough item_min (pt_locate alt cmpA) (findOnPage alt cmpA) (pt_leafEnough alt a)
      (pt_leafPlace alt a cmpA) (splitPage alt a) (pt_isep build) pt_rkey 0).
  Notation way := (trail cmp (@p_bound _) item_min pt_ienough (pt_locate alt cmpA) (findOnPage alt cmpA) (pt_leafEnough alt a)
      (pt_leafPlace alt a cmpA) (splitPage alt a) (pt_isep build) pt_rkey 0).
  Notation begin rows := (map (fun x : row => WDown x 0 []) rows).
  Let multi := (attr_align a =? 1)%N.

  Lemma way_states turns : forall s, fst s :: way s turns = map (fun n => fst (fold_left step (firstn n turns) s)) (seq 0 (S (length turns))).
  Proof.
    induction turns as [|i r IH]; intro s; [reflexivity|]. change (seq 0 (S (length (i :: r)))) with (0 :: seq 1 (S (length r))). cbn [trail map firstn fold_left]. f_equal.
    rewrite (IH (step s i)), <- (seq_shift (S (length r)) 0), map_map. reflexivity.
  Qed.
  Lemma way_last turns : forall s, last (way s turns) (fst s) = fst (fold_left step turns s).
  Proof. induction turns as [|i r IH]; intro s; [reflexivity|]. cbn [trail fold_left]. rewrite last_cons_eq. apply IH. Qed.
  Lemma way_grows rows0 rows turns s G : OI cmp pt_ifit false (pt_ok alt a) (fits_page alt a) (fun _ => True) true 0 rows0 rows s G ->
    exists G', grows cmp pt_ifit false (pt_ok alt a) (fits_page alt a) (@incl row) true 0 (fst s) G (way s turns) G'.
  Proof.
    apply (oi_grows cmp OK pt_ifit false (pt_ok alt a) (fits_page alt a) (fun _ => True) (@p_bound _) item_min pt_ienough (pt_locate alt cmpA)
      (findOnPage alt cmpA) (pt_leafEnough alt a) (pt_leafPlace alt a cmpA) (splitPage alt a) (pt_isep build) pt_rkey multi).
    - apply pt_kok_ok.
    - exact pt_ienough_ok.
    - apply pt_isep_ok.
    - exact pt_iroot_ok.
    - exact (p_bound_ok cmp OK _ _ _ _).
    - apply dataLocate_ok. exact OK.
    - exact (pt_find_ok alt a cmpA HA).
    - apply pt_place_ok; auto. unfold multi. intro H. apply N.eqb_eq. exact H.
    - apply pt_split_ok; auto. unfold multi. intro H. apply N.eqb_eq. exact H.
  Qed.

  (** The moments of a reader. *)
  Lemma overlap_moments rows0 rows turns sched : ssorted cmp rows0 -> Forall (storable alt a) rows0 -> fits_page alt a rows0 -> Forall (storable alt a) rows ->
    observed (states alt a cmpA build (createPostingTree rows0) rows turns) sched ->
    exists G idx N G', moments cmp pt_ifit false (pt_ok alt a) (fits_page alt a) true 0 (@incl row) sched G idx N /\
      TInv (fst (ptOverlap alt a cmpA build (createPostingTree rows0) rows turns)) 0 G' /\
      (forall t, incl (contents (sched t) (G t)) (contents (fst (ptOverlap alt a cmpA build (createPostingTree rows0) rows turns)) G')).
  Proof.
    intros Hs Ho Hf Hr Hob. destruct (create_oi alt a cmpA rows0 rows Hs Ho Hf Hr) as (G0 & H).
    destruct (way_grows rows0 rows turns _ _ H) as (G' & Hg).
    pose proof (ci_inv _ _ _ _ _ _ _ _ _ _ _ (oi_ci _ _ _ _ _ _ _ _ _ _ _ _ H)) as HI.
    assert (Est : states alt a cmpA build (createPostingTree rows0) rows turns = createPostingTree rows0 :: way (createPostingTree rows0, begin rows) turns)
      by (symmetry; exact (way_states turns (createPostingTree rows0, begin rows))).
    rewrite Est in Hob.
    destruct (moments_of cmp OK pt_ifit false (pt_ok alt a) (fits_page alt a) true 0 (@incl row) (@incl_refl row) (@incl_tran row) _ G0 _ G' sched HI Hg Hob)
      as (G & idx & N & HM & _ & _ & K).
    assert (El : last (way (createPostingTree rows0, begin rows) turns) (createPostingTree rows0) = fst (ptOverlap alt a cmpA build (createPostingTree rows0) rows turns)).
    { exact (way_last turns (createPostingTree rows0, begin rows)). }
    cbn [fst] in K. rewrite El in K. exists G, idx, N, G'. split; [exact HM|]. split; [exact (proj1 (proj1 (K 0)))|]. intro t; apply K.
  Qed.
End Overlap.

(** A posting tree is created with rows [before]; then any number of sessions insert a row each ([rows]), whatever
    their turns ([turns]): their changes mix, also while pages are being split.  A query with one key whose rows are in
    that tree reads it page by page meanwhile, beginning at any moment.  The scan comes to an end without error, and
    the rows the query gets are in ascending order without repetition, include every row that was in the tree when the
    scan read its first page, and are all in the tree at the end - provided the tree, if it is one page at the first
    page read, is still one page at the later ones. *)
Theorem C51_scan_during_overlapping_insertions_partial useAlt addTo att a cmpA build before rows turns sched rows0 rowsN junk :
  let alt := altOf useAlt addTo att in
  config_ok alt a -> total_cmp cmpA -> safe_align a ->
  ssorted (compareRumItem alt cmpA) before -> Forall (storable alt a) before -> fits_page alt a before -> Forall (storable alt a) rows ->
  observed (states alt a cmpA build (createPostingTree before) rows turns) sched -> settled sched ->
  ptScan (sched 0) = Some rows0 -> rows0 <> [] ->
  ptScan (fst (ptOverlap alt a cmpA build (createPostingTree before) rows turns)) = Some rowsN ->
  exists fuel c n out c', startC sched fuel att junk = Some c /\
    runC useAlt addTo cmpA sched n c = (out, Some c') /\ e_fin (c_ent c') = true /\
    let got := regular useAlt addTo cmpA att None out in
    ssorted (compareRumItem alt cmpA) got /\ incl rows0 got /\ incl got rowsN.
Proof.
  intros alt Hcfg HA Hsafe Hs0 Ho0 Hf0 Hr Hob Hset H0 Hne HN.
  destruct (overlap_moments alt a cmpA Hcfg HA Hsafe build before rows turns sched Hs0 Ho0 Hf0 Hr Hob) as (G & idx & N & G' & M & HI' & Hend).
  pose proof (scan_contents alt a cmpA HA true _ _ HI') as E'. rewrite HN in E'. injection E' as ->.
  pose proof (scan_contents alt a cmpA HA true _ _ (m_inv _ _ _ _ _ _ _ _ _ _ _ _ M 0)) as E0. rewrite H0 in E0. injection E0 as ->.
  destruct (scan_complete useAlt addTo cmpA HA att pt_ifit false (pt_ok alt a) (fits_page alt a) (row_valid alt a) sched G idx N M
    (settled_stay alt a cmpA sched G idx N M Hset) (contents (fst (ptOverlap alt a cmpA build (createPostingTree before) rows turns)) G') (contents (sched 0) (G 0)) Hend
    (fun t => m_rows _ _ _ _ _ _ _ _ _ _ _ _ M 0 t ltac:(lia)) junk Hne)
    as (fuel & c & n & out & c' & Hst & Hrun & Hf & Hincl & Hall & Hsort).
  exists fuel, c, n, out, c'. split; [exact Hst|]. split; [exact Hrun|]. split; [exact Hf|]. cbv zeta.
  split; [exact Hsort|]. split; [exact Hall|]. intros x Hx. apply Hincl. eapply regular_incl. exact Hx.
Qed.

(** A lookup of a row meanwhile - also when the root page is split - comes to a leaf without error; the row is on that
    leaf exactly when it is in the tree at the moment the leaf is read, in particular when it was there when the lookup
    began. *)
Theorem C51_lookup_during_overlapping_insertions alt a cmpA build before rows turns sched rows0 x :
  config_ok alt a -> total_cmp cmpA -> safe_align a ->
  ssorted (compareRumItem alt cmpA) before -> Forall (storable alt a) before -> fits_page alt a before -> Forall (storable alt a) rows ->
  observed (states alt a cmpA build (createPostingTree before) rows turns) sched ->
  storable alt a x -> ptScan (sched 0) = Some rows0 ->
  exists fuel t b pg stored,
    findLeafC (compareRumItem alt cmpA) (@p_bound _) (pt_locate alt cmpA) sched fuel 0 0 0 x = DLeaf t b /\
    get (sched t) b = Some pg /\ ptScan (sched t) = Some stored /\
    (fst (findOnPage alt cmpA (p_items pg) x) = true <-> exists y, In y stored /\ compareRumItem alt cmpA y x = 0%Z) /\
    ((exists y, In y rows0 /\ compareRumItem alt cmpA y x = 0%Z) -> fst (findOnPage alt cmpA (p_items pg) x) = true).
Proof.
  intros Hcfg HA Hsafe Hs0 Ho0 Hf0 Hr Hob Hx H0. pose proof (cri_total alt cmpA HA) as OK.
  destruct (overlap_moments alt a cmpA Hcfg HA Hsafe build before rows turns sched Hs0 Ho0 Hf0 Hr Hob) as (G & idx & N & G' & M & _).
  pose proof (m_inv _ _ _ _ _ _ _ _ _ _ _ _ M) as HI.
  pose proof (scan_contents alt a cmpA HA true _ _ (HI 0)) as E0. rewrite H0 in E0. injection E0 as ->.
  destruct (findLeafC_root _ OK _ _ _ _ _ _ (@p_bound _) (pt_locate alt cmpA) (p_bound_ok _ OK _ _ _ _) (dataLocate_ok _ OK false) _ sched G idx N M x)
    as (fuel & t & b & Hf & Hat & Hrg).
  destruct (page_get _ _ _ _ _ _ _ _ _ (HI t) _ _ Hat) as [pg Hg].
  exists fuel, t, b, pg, (contents (sched t) (G t)). split; [exact Hf|]. split; [exact Hg|]. split; [exact (scan_contents alt a cmpA HA true _ _ (HI t))|].
  destruct (leaf_items _ _ _ _ _ _ _ _ _ (HI t) _ _ Hat Hg) as (Hs & Hok & _).
  assert (K : fst (findOnPage alt cmpA (p_items pg) x) = true <-> exists y, In y (contents (sched t) (G t)) /\ compareRumItem alt cmpA y x = 0%Z).
  { rewrite (pt_find_ok alt a cmpA HA _ _ Hs Hok Hx). apply (found_in_leaf _ OK _ _ _ _ _ _ _ _ (HI t) _ _ _ Hat Hg Hrg). }
  split; [exact K|]. intros (y & Hy & E). apply K. exists y. split; [|exact E]. exact (m_rows _ _ _ _ _ _ _ _ _ _ _ _ M 0 t ltac:(lia) y Hy).
Qed.

(** ** ten sessions and a reader *)
(** The first [k] page reads are made after [n] rounds, while three splits are unfinished; the others after the last turn. *)
Definition overlooked (n m k t : nat) : list (page row) := if t <? k then fst (ten_after n) else fst (ten_after m).
Lemma rounds_split n m : n <= m -> firstn (10 * n) (rounds m) = rounds n.
Proof.
  revert m. induction n as [|n IH]; intros m L; [reflexivity|]. destruct m as [|m]; [lia|].
  unfold rounds in *. cbn [repeat concat]. replace (10 * S n) with (length (seq 0 10) + 10 * n) by (rewrite seq_length; lia).
  rewrite firstn_app_2, (IH m ltac:(lia)). reflexivity.
Qed.
Lemma rounds_length n : length (rounds n) = 10 * n.
Proof. induction n as [|n IH]; [reflexivity|]. unfold rounds in *. cbn [repeat concat]. rewrite app_length, IH, seq_length. lia. Qed.
Lemma overlooked_observed n m k : n <= m ->
  observed (states false big_attr zcmp false (createPostingTree ten_old) ten (rounds m)) (overlooked n m k).
Proof.
  intro L. exists (fun t => if t <? k then 10 * n else 10 * m). split.
  - intros t t' Lt. destruct (Nat.ltb_spec t k), (Nat.ltb_spec t' k); lia.
  - intro t. unfold states, overlooked, ten_after.
    assert (K : forall q, q <= m -> nth_error (map (fun n => fst (ptOverlap false big_attr zcmp false (createPostingTree ten_old) ten (firstn n (rounds m)))) (seq 0 (S (length (rounds m))))) (10 * q)
       = Some (fst (ptOverlap false big_attr zcmp false (createPostingTree ten_old) ten (rounds q)))).
    { intros q Hq. rewrite <- (rounds_split q m Hq).
      apply (map_nth_error (fun n => fst (ptOverlap false big_attr zcmp false (createPostingTree ten_old) ten (firstn n (rounds m))))).
      rewrite rounds_length, (nth_error_nth' _ 0) by (rewrite seq_length; lia). rewrite seq_nth by lia. reflexivity. }
    destruct (t <? k); apply K; [exact L|lia].
Qed.
Lemma omap_len (o : option (list row)) l : option_map (map (fun r => blk (ip r))) o = Some l -> exists l', o = Some l' /\ length l' = length l.
Proof. destruct o as [l'|]; cbn; intro H; [|discriminate]. injection H as <-. exists l'. rewrite map_length. auto. Qed.
Lemma C51_overlap_hypotheses_met : exists rows0 rowsN,
  config_ok false big_attr /\ total_cmp zcmp /\ safe_align big_attr /\
  ssorted (compareRumItem false zcmp) ten_old /\ Forall (storable false big_attr) ten_old /\ fits_page false big_attr ten_old /\
  Forall (storable false big_attr) ten /\
  observed (states false big_attr zcmp false (createPostingTree ten_old) ten (rounds 7)) (overlooked 3 7 2) /\ settled (overlooked 3 7 2) /\
  ptScan (fst (ten_after 3)) = Some rows0 /\ overlooked 3 7 2 0 = fst (ten_after 3) /\ rows0 <> [] /\
  ptScan (fst (ten_after 7)) = Some rowsN /\ ten_after 7 = ptOverlap false big_attr zcmp false (createPostingTree ten_old) ten (rounds 7) /\
  length rows0 = 9 /\ length rowsN = 13 /\ length (filter splitting (snd (ten_after 3))) = 3.
Proof.
  destruct C53_example as (E1 & E2 & E3 & E4 & E5 & E6 & E7 & E8 & E9 & _ & E11).
  pose proof (omap_len (ptScan (fst (ten_after 3))) _ E9) as M9.
  pose proof (omap_len (ptScan (fst (ten_after 7))) _ E11) as M11. clear E9 E11.
  destruct M9 as (l & El & L9). destruct M11 as (l' & El' & L11).
  exists l, l'. split; [exact E1|]. split; [exact E2|]. split; [exact E3|]. split; [exact E4|]. split; [exact E5|]. split; [exact E6|]. split; [exact E7|]. split; [apply overlooked_observed; lia|]. split.
  - intro H. exfalso. assert (H' : leaf_root (fst (ten_after 3)) = false) by (vm_compute; reflexivity).
    change (leaf_root (fst (ten_after 3)) = true) in H. rewrite H' in H. discriminate H.
  - split; [exact El|]. split; [reflexivity|]. split; [destruct l; [discriminate L9|discriminate]|]. split; [exact El'|]. split; [reflexivity|]. split; [exact L9|]. split; [exact L11|exact E8].
Qed.

Print Assumptions C51_scan_during_overlapping_insertions_partial.
Print Assumptions C51_lookup_during_overlapping_insertions.
Print Assumptions C51_overlap_hypotheses_met.
