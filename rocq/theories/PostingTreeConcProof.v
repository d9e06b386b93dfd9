(** Proofs for PropTreeConc.v. *)
From Verif Require Import Base Ord OrdProof Codec CodecSpec CodecProof LeafPage LeafSpec LeafCodec LeafCodecProof PropCodecProof
  BTree BTreeInv BTreeFind BTreeIns BTreeConc BTreeConcInv BTreeConcProof PostingTree PostingTreeProof PostingTreeSpec PropTreeProof
  PostingTreeConc PostingTreeConcSpec.
From Coq Require Import NArith ZArith Lia List Bool Arith.
Import ListNotations.

Section PConc.
  Variables (alt : bool) (a : attr) (cmpA : datum -> datum -> Z).
  Hypothesis Hcfg : config_ok alt a.
  Hypothesis HA : total_cmp cmpA.
  Hypothesis Hsafe : safe_align a.
  Variable build : bool.
  Notation cmp := (compareRumItem alt cmpA).
  Let OK : total_cmp cmp := cri_total alt cmpA HA.
  Notation TInv := (Inv cmp pt_ifit false (pt_ok alt a) (fits_page alt a) true).
  Notation POI := (OI cmp pt_ifit false (pt_ok alt a) (fits_page alt a) (fun _ => True) true 0).
  Notation ov := (ptOverlap alt a cmpA build).
  Let multi := (attr_align a =? 1)%N.

  Lemma ov_app st rows s1 s2 : ov st rows (s1 ++ s2) = fold_left (sysStep cmp (@p_bound _) (pt_ienough) item_min (pt_locate alt cmpA) (findOnPage alt cmpA) (pt_leafEnough alt a)
      (pt_leafPlace alt a cmpA) (splitPage alt a) (pt_isep build) pt_rkey 0) s2 (ov st rows s1).
  Proof. unfold ptOverlap, overlap. apply fold_left_app. Qed.

  Lemma create_oi rows0 rows : ssorted cmp rows0 -> Forall (storable alt a) rows0 -> fits_page alt a rows0 -> Forall (storable alt a) rows ->
    exists G, POI rows0 rows (createPostingTree rows0, map (fun x => WDown x 0 []) rows) G.
  Proof.
    intros Hs Ho Hf Hr. destruct (create_inv alt a cmpA rows0 Hs Ho Hf) as (G & HI & Hc & E).
    exists G. rewrite <- E at 1. apply (oi_start cmp pt_ifit false (pt_ok alt a) (fits_page alt a) (fun _ => True) true 0); auto.
    intros h b pg Hb Hg. pose proof (at_valid _ _ _ _ _ _ _ _ _ HI _ _ Hb) as Hv. cbn in Hv. assert (b = 0) as -> by lia.
    destruct (page_facts cmp pt_ifit false (pt_ok alt a) (fits_page alt a) true _ _ _ HI _ _ _ Hb Hg) as (Hl & _ & _ & _ & _ & Hbd).
    cbn in Hg. injection Hg as <-. cbn in Hl. destruct h as [|h]; [|discriminate]. destruct Hbd as (Hh & _). cbn in Hh |- *. split; [exact Hh|congruence].
  Qed.

  Lemma sched_oi C0 rows sched s G : POI C0 rows s G -> let s' := fold_left (sysStep cmp (@p_bound _) (pt_ienough) item_min (pt_locate alt cmpA) (findOnPage alt cmpA) (pt_leafEnough alt a)
      (pt_leafPlace alt a cmpA) (splitPage alt a) (pt_isep build) pt_rkey 0) sched s in
    exists G', POI C0 rows s' G' /\ forall y, In y (contents (fst s) G) -> In y (contents (fst s') G').
  Proof.
    apply (oi_sched cmp OK pt_ifit false (pt_ok alt a) (fits_page alt a) (fun _ => True) (@p_bound _) item_min pt_ienough (pt_locate alt cmpA)
      (findOnPage alt cmpA) (pt_leafEnough alt a) (pt_leafPlace alt a cmpA) (splitPage alt a) (pt_isep build) pt_rkey multi).
    - apply pt_kok_ok.
    - exact pt_ienough_ok.
    - apply pt_isep_ok.
    - exact pt_iroot_ok.
    - exact (p_bound_ok cmp OK _ _ _ _).
    - apply dataLocate_ok. exact OK.
    - exact (pt_find_ok alt a cmpA HA).
    - apply pt_place_ok; auto. unfold multi. intro H. apply N.eqb_eq. exact H.
    - apply pt_split_ok; auto. unfold multi. intro H. apply N.eqb_eq. exact H.
  Qed.

  Lemma oi_holds C0 rows s G : POI C0 rows s G -> holds_so_far alt a cmpA C0 rows (fst s) (snd s).
  Proof.
    intro H. pose proof (ci_inv _ _ _ _ _ _ _ _ _ _ _ (oi_ci _ _ _ _ _ _ _ _ _ _ _ _ H)) as HI.
    exists (contents (fst s) G). split; [apply (inv_tree_is alt a cmpA HA); exact HI|]. split; [exact (oi_keep _ _ _ _ _ _ _ _ _ _ _ _ H)|].
    split.
    - intros y Hy. destruct (oi_only _ _ _ _ _ _ _ _ _ _ _ _ H y Hy) as [K|(i & w & A & B & D)]; [auto|]. right. exists i, w. split; [exact A|]. split; [exact B|].
      destruct w; cbn; auto. destruct (D x b stack eq_refl).
    - intros i x w Hx Hw Hwr. destruct (oi_row _ _ _ _ _ _ _ _ _ _ _ _ H i x w Hx Hw) as [(b & k & ->)|[_ K]]; [destruct Hwr|exact K].
  Qed.
  Lemma oi_not_failed C0 rows s G i w : POI C0 rows s G -> nth_error (snd s) i = Some w -> ~ failed w.
  Proof.
    intros H Hi [->| ->]; exact (ci_ok _ _ _ _ _ _ _ _ _ _ _ (oi_ci _ _ _ _ _ _ _ _ _ _ _ _ H) i _ Hi).
  Qed.

  Section Start.
    Variables (rows0 rows : list row).
    Hypothesis Hs0 : ssorted cmp rows0.
    Hypothesis Ho0 : Forall (storable alt a) rows0.
    Hypothesis Hf0 : fits_page alt a rows0.
    Hypothesis Hr : Forall (storable alt a) rows.
    Notation run sched := (ov (createPostingTree rows0) rows sched).

    Lemma run_oi sched : exists G, POI rows0 rows (run sched) G.
    Proof.
      destruct (create_oi rows0 rows Hs0 Ho0 Hf0 Hr) as (G & H). destruct (sched_oi rows0 rows sched _ _ H) as (G' & H' & _). exists G'. exact H'.
    Qed.
    Lemma overlap_holds sched : length (snd (run sched)) = length rows /\
      holds_so_far alt a cmpA rows0 rows (fst (run sched)) (snd (run sched)) /\
      forall i w, nth_error (snd (run sched)) i = Some w -> ~ failed w.
    Proof.
      destruct (run_oi sched) as (G & H). split; [exact (oi_len _ _ _ _ _ _ _ _ _ _ _ _ H)|].
      split; [eapply oi_holds; eauto|]. intros i w. eapply oi_not_failed; eauto.
    Qed.
    Lemma overlap_grows sched more stored stored' : ptScan (fst (run sched)) = Some stored -> ptScan (fst (run (sched ++ more))) = Some stored' -> incl stored stored'.
    Proof.
      destruct (run_oi sched) as (G & H). destruct (sched_oi rows0 rows more _ _ H) as (G' & H' & Hi). rewrite <- ov_app in H', Hi.
      pose proof (ci_inv _ _ _ _ _ _ _ _ _ _ _ (oi_ci _ _ _ _ _ _ _ _ _ _ _ _ H)) as HI.
      pose proof (ci_inv _ _ _ _ _ _ _ _ _ _ _ (oi_ci _ _ _ _ _ _ _ _ _ _ _ _ H')) as HI'.
      destruct (inv_tree_is alt a cmpA HA _ _ HI) as (E & _). destruct (inv_tree_is alt a cmpA HA _ _ HI') as (E' & _).
      intros K K'. assert (X := eq_trans (eq_sym K) E). assert (X' := eq_trans (eq_sym K') E'). injection X as ->. injection X' as ->. exact Hi.
    Qed.
    Lemma overlap_goes sched : ~ all_done (snd (run sched)) -> exists i w s, nth_error (snd (run sched)) i = Some w /\
      ptAct alt a cmpA build (free (snd (run sched)) i) (fst (run sched)) 0 w = Some s.
    Proof.
      intro Hn. destruct (run_oi sched) as (G & H).
      assert (D : (forall w : writer row, In w (snd (run sched)) -> w = WDone) \/ exists w, In w (snd (run sched)) /\ w <> WDone).
      { induction (snd (run sched)) as [|w ws IH]; [left; intros w []|].
        assert (Dw : w = WDone \/ w <> WDone) by (destruct w; try (right; discriminate); left; reflexivity).
        destruct Dw as [->|Dw]; [|right; exists w; simpl; auto]. 
        destruct (fun K => IH K) as [K|(w & K1 & K2)]; [|left; intros w' [<-|Hw]; auto|right; exists w; simpl; auto].
        intros K. apply Hn. intros [|i] w' Hi; [cbn in Hi; congruence|]. exact (K i w' Hi). }
      destruct D as [D|(w & Hin & Hw)].
      - destruct Hn. intros i w Hi. apply D. eapply nth_error_In; eauto.
      - apply In_nth_error in Hin as [i Hi].
        exact (no_deadlock cmp pt_ifit false (pt_ok alt a) (fits_page alt a) (fun _ => True) (@p_bound _) item_min pt_ienough (pt_locate alt cmpA)
          (findOnPage alt cmpA) (pt_leafEnough alt a) (pt_leafPlace alt a cmpA) (splitPage alt a) (pt_isep build) pt_rkey true 0 _ G _ i w (oi_ci _ _ _ _ _ _ _ _ _ _ _ _ H) Hi Hw).
    Qed.
    (** the tree left behind is as good as new *)
    Lemma overlap_after sched build' batch : all_done (snd (run sched)) -> valid_batch alt a cmpA batch ->
      exists tr, ptInsert alt a cmpA build' (fst (run sched)) batch = Some (tr, false).
    Proof.
      intros Hd Hb. destruct (run_oi sched) as (G & H).
      pose proof (ci_inv _ _ _ _ _ _ _ _ _ _ _ (oi_ci _ _ _ _ _ _ _ _ _ _ _ _ H)) as HI.
      assert (Hc := oi_done cmp pt_ifit false (pt_ok alt a) (fits_page alt a) (fun _ => True) true 0 _ _ _ _ H Hd).
      destruct (insert_ok alt a cmpA Hcfg HA Hsafe build' batch _ G HI Hb) as (tr & lost & done & todo & Hi & _ & _ & _ & G' & _ & _ & HC').
      destruct (HC' Hc) as [-> _]. exists tr. exact Hi.
    Qed.
    (** with fair turns everybody finishes *)
    Lemma overlap_ends f : fair (length rows) f -> exists n, forall m, n <= m -> all_done (snd (run (map f (seq 0 m)))).
    Proof.
      intro Hfair. destruct (create_oi rows0 rows Hs0 Ho0 Hf0 Hr) as (G & H).
      assert (K := fair_end cmp OK pt_ifit false (pt_ok alt a) (fits_page alt a) (fun _ => True) (@p_bound _) item_min pt_ienough (pt_locate alt cmpA)
        (findOnPage alt cmpA) (pt_leafEnough alt a) (pt_leafPlace alt a cmpA) (splitPage alt a) (pt_isep build) pt_rkey multi
        (pt_kok_ok _ _) pt_ienough_ok (pt_isep_ok _) pt_iroot_ok (p_bound_ok cmp OK _ _ _ _) (dataLocate_ok _ OK _)
        (pt_find_ok alt a cmpA HA)).
      destruct (K ltac:(apply pt_place_ok; auto; unfold multi; intro E; apply N.eqb_eq; exact E)
        ltac:(apply pt_split_ok; auto; unfold multi; intro E; apply N.eqb_eq; exact E) true 0 rows0 rows f Hfair _ G H 0) as (n & Hn).
      exists n. intros m Hm. replace m with (n + (m - n)) by lia. rewrite seq_app, map_app, ov_app.
      assert (E : forall sched s, all_done (snd s) -> fold_left (sysStep cmp (@p_bound _) (pt_ienough) item_min (pt_locate alt cmpA) (findOnPage alt cmpA) (pt_leafEnough alt a)
        (pt_leafPlace alt a cmpA) (splitPage alt a) (pt_isep build) pt_rkey 0) sched s = s) by (intros; apply done_stays; assumption).
      rewrite E; exact Hn.
    Qed.
  End Start.
End PConc.

(** ten sessions, three at a time in the middle of a split *)
Definition ten_old : list row := map bigrow [10; 20; 30]%N.
Definition ten : list row := map bigrow [15; 25; 35; 12; 22; 32; 37; 17; 27; 11]%N.
Definition rounds (n : nat) : list nat := concat (repeat (seq 0 10) n).
Definition ten_after (n : nat) : list (page row) * list (writer row) :=
  ptOverlap false big_attr zcmp false (createPostingTree ten_old) ten (rounds n).
Definition splitting (w : writer row) : bool := match w with WWalk _ _ _ _ _ _ | WPlace _ _ _ _ _ _ => true | _ => false end.
Definition doneb (w : writer row) : bool := match w with WDone => true | _ => false end.

Lemma C53_example :
  config_ok false big_attr /\ total_cmp zcmp /\ safe_align big_attr /\
  ssorted (compareRumItem false zcmp) ten_old /\ Forall (storable false big_attr) ten_old /\ fits_page false big_attr ten_old /\
  Forall (storable false big_attr) ten /\
  length (filter splitting (snd (ten_after 3))) = 3 /\
  option_map (map (fun r => blk (ip r))) (ptScan (fst (ten_after 3))) = Some [10; 11; 12; 15; 20; 22; 25; 30; 35]%N /\
  forallb doneb (snd (ten_after 7)) = true /\
  option_map (map (fun r => blk (ip r))) (ptScan (fst (ten_after 7))) = Some [10; 11; 12; 15; 17; 20; 22; 25; 27; 30; 32; 35; 37]%N.
Proof.
  split; [split; [cbn; unfold legal_align; lia|discriminate]|]. split; [exact zero_total|]. split; [cbn; lia|].
  assert (Hb : forall l, Forall (fun i => (i < 2 ^ 32)%N) l -> Forall (storable false big_attr) (map bigrow l)).
  { intros l Hl. rewrite Forall_map. eapply Forall_impl; [|exact Hl]. exact bigrow_storable. }
  split; [unfold ten_old; repeat (constructor; [|try (repeat constructor; vm_compute; reflexivity)]); constructor|].
  split; [apply Hb; repeat constructor|]. split; [|split; [apply Hb; repeat constructor|]].
  - unfold fits_page.
    assert (K : match writePostingList false big_attr 0 ten_old ip_min with Some bs => (nlen bs <=? RumDataPageSize)%N | None => false end = true)
      by (vm_compute; reflexivity).
    destruct (writePostingList false big_attr 0 ten_old ip_min) as [bs|]; [|discriminate]. exists bs. split; [reflexivity|].
    apply N.leb_le. exact K.
  - repeat split; vm_compute; reflexivity.
Qed.
