(** Proofs for PropVacScan.v. *)
From Coq Require Import NArith ZArith Lia List Permutation Sorted Bool Arith.
From Verif Require Import Base Ord OrdProof Codec CodecSpec LeafPage LeafSpec LeafCodec BTree BTreeInv BTreeFind PostingTree PostingTreeSpec
  PostingTreeProof PropTreeProof VacuumTree VacTreeSpec PropVacTreeProof ScanEntry ScanEntryProof Scan ScanSpec ScanRegular ScanFast IndexScan TreeFound VacScanSpec.
Import ListNotations.

Section VacScan.
  Variables (alt : bool) (a : attr) (cmpA : datum -> datum -> Z).
  Hypothesis Hcfg : config_ok alt a.
  Hypothesis HA : total_cmp cmpA.
  Hypothesis Hsafe : safe_align a.
  Notation cmp := (compareRumItem alt cmpA).
  Let OK : total_cmp cmp := cri_total alt cmpA HA.
  Notation VInv := (Inv cmp pt_ifit false (pt_ok alt a) (fits_page alt a) false).

  Lemma contents_valid st G y : VInv st 0 G -> In y (contents st G) -> row_ok alt a y.
  Proof.
    intros HI Hy. apply (contents_in cmp _ _ _ _ _ _ _ _ HI) in Hy as (b & pg & Hat & Hg & Hin).
    destruct (BTreeFind.leaf_items cmp _ _ _ _ _ _ _ _ HI _ _ Hat Hg) as (_ & Ho & _). rewrite Forall_forall in Ho. apply (Ho y Hin).
  Qed.

  Theorem vacuumed_found st must may junk : vreaches alt a cmpA st must may -> junk_ok st junk ->
    exists f refind rows, treeFound cmpA junk alt st = Some (f, refind) /\ ptScan st = Some rows /\
      (forall join, rows_found join f = rows) /\ (forall rs, f <> FMany rs) /\
      ssorted cmp rows /\ (forall y, In y rows -> off (ip y) <> 0%N) /\ found_ok cmp f refind.
  Proof.
    intros HR HJ. destruct (vreaches_inv alt a cmpA Hcfg HA Hsafe st must may HR) as (G & HI & _ & _ & _).
    destruct (treeFound_gen alt a cmpA HA false st G junk HI) as (b0 & L0 & refind & HL & Hf & Hc & Hok). cbv zeta in *.
    destruct (vinv_tree_is alt a cmpA HA st G HI) as (Hscan & Hsort & _).
    exists (FTree (map (leafOf st) (b0 :: L0)) junk), refind, (contents st G).
    split; [exact Hf|]. split; [exact Hscan|]. split; [intro join; exact Hc|]. split; [discriminate|]. split; [exact Hsort|].
    split; [intros y Hy; destruct (contents_valid st G y HI Hy) as [_ H]; lia|].
    apply Hok. rewrite leaf_items_at.
    assert (Hat0 : at_ G 0 b0) by (exists (b0 :: L0); split; [exact HL|left; reflexivity]).
    destruct (BTreeFind.page_get cmp _ _ _ _ _ _ _ _ HI _ _ Hat0) as [pg Hg].
    destruct (items_at st b0) as [|x l] eqn:Ei; [|left; discriminate]. right.
    unfold items_at, row in Ei. unfold row in Hg. rewrite Hg in Ei.
    destruct (leftmost_spec cmp OK _ _ _ _ _ _ _ _ HI (S (length st)) (top G) 0 []) as (b1 & L1 & HL1 & Hl).
    { apply (top_root _ _ _ _ _ _ _ _ _ HI). }
    { pose proof (levels_le cmp _ _ _ _ _ _ _ _ HI) as LE. unfold top, row in *. lia. }
    assert (EE : b1 :: L1 = b0 :: L0) by (assert (Q : Some (b1 :: L1) = Some (b0 :: L0)) by (rewrite <- HL1; exact HL); injection Q as -> ->; reflexivity).
    injection EE as -> ->.
    destruct (HJ b0 pg Hl Hg Ei) as [[H1 H2]|[H1 H2]]; [left|right]; (split; [exact H1|]).
    - intros y Hy. apply (H2 _ Hscan). rewrite <- Hc. cbn [map flat_map]. apply in_app_iff. right. exact Hy.
    - destruct L0 as [|c L0]; [left; reflexivity|right]. exists (leafOf st c), (map (leafOf st) L0). split; [reflexivity|].
      pose proof (I_links _ _ _ _ _ _ _ _ _ HI _ _ HL) as Hlk. pose proof (links_at _ None [] b0 (c :: L0) Hlk) as (pg' & Hg' & Hr' & _).
      unfold row in *. rewrite Hg in Hg'. injection Hg' as <-. cbn [hd_error] in Hr'.
      assert (Hatc : at_ G 0 c) by (exists (b0 :: c :: L0); split; [exact HL|right; left; reflexivity]).
      destruct (BTreeFind.page_get cmp _ _ _ _ _ _ _ _ HI _ _ Hatc) as [pgc Hgc].
      rewrite leaf_items_at. unfold items_at, row. unfold row in Hgc. rewrite Hgc. exact (H2 c pgc Hr' Hgc).
  Qed.
End VacScan.

(** ** Scans *)
Section Scans.
  Variables (useAlt : bool) (addTo : N) (cmpA : datum -> datum -> Z).
  Hypothesis HA : total_cmp cmpA.
  Variable joinFn : joins datum.
  Definition vac_key (a : bool) (q : qentry (A := datum)) : Prop :=
    exists at_ st must may junk, config_ok a at_ /\ safe_align at_ /\ vreaches a at_ cmpA st must may /\ junk_ok st junk /\
      treeFound cmpA junk a st = Some (q_found q, q_refind q).

  Lemma vac_key_ok a q : vac_key a q -> found_ok (compareRumItem a cmpA) (q_found q) (q_refind q) /\
    ssorted (compareRumItem a cmpA) (rows_found (joinFn (q_att q)) (q_found q)) /\
    (forall y, In y (rows_found (joinFn (q_att q)) (q_found q)) -> off (ip y) <> 0%N) /\ forall rs, q_found q <> FMany rs.
  Proof.
    intros (at_ & st & must & may & junk & Hc & Hs & HR & HJ & Hf).
    destruct (vacuumed_found a at_ cmpA Hc HA Hs st must may junk HR HJ) as (f & refind & rows & Hf' & _ & Hr & Hm & Hso & Hv & Hok).
    rewrite Hf in Hf'. injection Hf' as <- <-. rewrite Hr. auto.
  Qed.
  Lemma vac_rows_ok a qs : (forall q, In q qs -> vac_key a q) ->
    (forall q q' y y', In q qs -> In q' qs -> In y (rows_found (joinFn (q_att q)) (q_found q)) -> In y' (rows_found (joinFn (q_att q')) (q_found q')) -> ip y = ip y' -> add y = add y') ->
    rows_ok (compareRumItem a cmpA) (rows joinFn qs).
  Proof.
    intros HV HS. pose proof (cri_total a cmpA HA) as OK. split.
    - intros C HC. unfold rows in HC. apply in_map_iff in HC as (q & <- & Hq). destruct (vac_key_ok a q (HV q Hq)) as (_ & H2 & H3 & _). auto.
    - intros C C' y y' HC HC' Hy Hy' E. unfold rows in HC, HC'. apply in_map_iff in HC as (q & <- & Hq). apply in_map_iff in HC' as (q' & <- & Hq').
      pose proof (HS q q' y y' Hq Hq' Hy Hy' E) as EA. destruct y as [i v], y' as [i' v']. cbn [ip add] in *. subst. apply (tc_refl _ OK).
  Qed.
End Scans.
