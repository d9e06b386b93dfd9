(** Proofs about natural-order scans. *)
From Verif Require Import Base Ord OrdProof LeafPage LeafProof ScanEntry ScanEntryProof TidBitmap Scan ScanSpec ScanRegular ScanFast NatScan ScanFastD NatEntry NatSpec.
From Coq Require Import NArith ZArith Bool Arith List Lia Permutation Sorted.
Import ListNotations.
Local Open Scope Z_scope.

Section Nat.
  Context {A : Type}.
  Variables (addTo : N) (cmpA : A -> A -> Z).
  Hypothesis CA : total_cmp cmpA.
  Variable joinFn : joins A.
  Variable below : item A.
  Notation item := (item A).
  Notation entry := (entry A).
  Notation skey := (skey A).
  Notation qentry := (qentry (A := A)).
  Notation cmp := (compareRumItem true cmpA).
  Let OK : total_cmp cmp := cri_total true cmpA CA.

  Lemma cmpAt_addTo : cmpAt true addTo cmpA addTo = cmp.
  Proof. unfold cmpAt, altOf. rewrite N.eqb_refl. reflexivity. Qed.
  Lemma mark_upper v y : ip_valid (ip y) = true -> if upper cmpA v y then cmp (markItem v) y < 0 else 0 < cmp (markItem v) y.
  Proof.
    intro V. unfold upper, compareRumItem, markItem. cbn [add ip]. destruct (add y) as [a|]; [|lia].
    destruct (Z.leb_spec (cmpA v a) 0) as [L|L]; destruct (Z.eqb_spec (cmpA v a) 0) as [E|E]; try lia.
    apply cip_lt. unfold ip_valid in V. apply negb_true_iff, N.eqb_neq in V. destruct (ip y) as [b o]. cbn [blk off ip_min] in *. lia.
  Qed.
  Lemma split_mark v (l : list item) : ssorted cmp l -> Forall valid_row l ->
    l = filter (fun y => negb (upper cmpA v y)) l ++ filter (upper cmpA v) l.
  Proof.
    induction l as [|h t IH]; intros S V; [reflexivity|]. apply (ssorted_inv cmp) in S as [S F]. apply Forall_cons_iff in V as [V1 V].
    cbn [filter]. pose proof (mark_upper v h V1) as M. destruct (upper cmpA v h) eqn:E; cbn [negb].
    - assert (AL : forallb (upper cmpA v) t = true).
      { apply forallb_forall. intros y Hy. rewrite Forall_forall in F, V. pose proof (mark_upper v y (V y Hy)) as My.
        destruct (upper cmpA v y); [reflexivity|]. pose proof (cmp_lt_trans _ OK _ _ _ M (F y Hy)). lia. }
      rewrite (forallb_filter_id _ _ AL).
      assert (NL : filter (fun y => negb (upper cmpA v y)) t = []).
      { clear - AL. induction t as [|y t IH]; [reflexivity|]. cbn [forallb filter] in *. apply andb_true_iff in AL as [-> AL]. cbn [negb]. apply IH. exact AL. }
      rewrite NL. reflexivity.
    - cbn [app]. f_equal. apply IH; assumption.
  Qed.
  Lemma lower_marks v l : Forall valid_row l -> Forall (fun y => 0 < cmp (markItem v) y) (filter (fun y => negb (upper cmpA v y)) l).
  Proof.
    intro V. apply Forall_forall. intros y Hy. apply filter_In in Hy as [Hy E]. rewrite Forall_forall in V. pose proof (mark_upper v y (V y Hy)) as M.
    destruct (upper cmpA v y); [discriminate|exact M].
  Qed.
  Lemma upper_marks v l : Forall valid_row l -> Forall (fun y => cmp (markItem v) y < 0) (filter (upper cmpA v) l).
  Proof.
    intro V. apply Forall_forall. intros y Hy. apply filter_In in Hy as [Hy E]. rewrite Forall_forall in V. pose proof (mark_upper v y (V y Hy)) as M.
    rewrite E in M. exact M.
  Qed.

  (** The rows of a list a pass goes through, in its order. *)
  Definition side (fwd : bool) (v : A) (l : list item) : list item :=
    if fwd then filter (upper cmpA v) l else rev (filter (fun y => negb (upper cmpA v y)) l).
  Lemma side_in fwd v l y : In y (side fwd v l) <-> In y l /\ upper cmpA v y = fwd.
  Proof.
    unfold side. destruct fwd; [apply filter_In|]. rewrite <- in_rev, filter_In, negb_true_iff. reflexivity.
  Qed.
  Lemma ssorted_rev (l : list item) : ssorted cmp l -> ssorted (cmpDir cmpA false) (rev l).
  Proof.
    induction l as [|a l IH]; intro S; [constructor|]. apply (ssorted_inv cmp) in S as [S F]. cbn [rev].
    apply (ssorted_app (cmpDir cmpA false)). split; [apply IH; exact S|]. split; [apply ssorted_cons; constructor|].
    intros x y Hx [<-|[]]. apply in_rev in Hx. rewrite Forall_forall in F. specialize (F x Hx). apply (cmp_lt_gt _ OK) in F. unfold cmpDir. lia.
  Qed.
  Lemma side_sorted fwd v l : ssorted cmp l -> ssorted (cmpDir cmpA fwd) (side fwd v l).
  Proof.
    intro S. unfold side. destruct fwd; [apply (ssorted_filter cmp); [exact OK|exact S] || (apply ssorted_filter; exact S)|].
    apply ssorted_rev. apply ssorted_filter; exact S.
  Qed.

  (** [repF e s]: forward. *)
  Definition repF (e : entry) (s : list item) : Prop :=
    e_att e = addTo /\ rep true addTo cmpA joinFn e s /\ moved e /\ is_coll e = false.
  Definition repN (fwd trees : bool) : entry -> list item -> Prop := if fwd then repF else repB addTo cmpA trees.
  Notation getD := (getDir addTo cmpA joinFn below).
  Notation findD := (findDir addTo cmpA below).

  Lemma repN_fin fwd trees e s : repN fwd trees e s -> e_fin e = false.
  Proof. unfold repN. destruct fwd; [intros (_ & H & _); apply (rep_ext_att _ _ _ _ _ _ H)|apply repB_fin]. Qed.
  Lemma repN_bound fwd trees e s : repN fwd trees e s -> (length s + 1 <= e_bound e)%nat.
  Proof. unfold repN. destruct fwd; [intros (_ & H & _); apply (rep_bound _ _ _ _ _ _ H)|apply repB_bound]. Qed.
  Lemma repN_get fwd trees e s : repN fwd trees e s ->
    e_att (getD fwd e) = e_att e /\ match s with [] => e_fin (getD fwd e) = true | x :: r => repN fwd trees (getD fwd e) r /\ e_cur (getD fwd e) = x end.
  Proof.
    unfold repN, getDir. destruct fwd; [|apply getB_spec; exact CA]. intros (H1 & H2 & H3 & H4).
    destruct (entryGetItem_full true addTo cmpA CA joinFn e s H2) as [E1 E2]. split; [exact E1|]. destruct s as [|x r]; [exact E2|].
    destruct E2 as (E2 & E3 & E4). split; [|exact E3]. split; [congruence|]. split; [exact E2|]. split; [exact E4|]. apply getItem_coll. exact H4.
  Qed.
  Lemma repN_find fwd trees e s x : (fwd = false -> trees = false) -> repN fwd trees e s -> cmpDir cmpA fwd (e_cur e) x < 0 -> ip_valid (ip x) = true ->
    e_att (findD fwd e x) = e_att e /\
    ((e_fin (findD fwd e x) = true /\ Forall (fun z => (cmpDir cmpA fwd z x <? 0) = true) s) \/
     (exists a y r, s = a ++ y :: r /\ Forall (fun z => (cmpDir cmpA fwd z x <? 0) = true) a /\ (cmpDir cmpA fwd y x <? 0) = false /\
        repN fwd trees (findD fwd e x) r /\ e_cur (findD fwd e x) = y)).
  Proof.
    unfold repN, findDir, cmpDir. destruct fwd.
    - intros _ (H1 & H2 & H3 & H4) L V.
      assert (NC : forall rest c, e_src e <> Coll rest c) by (intros rest c E; unfold is_coll in H4; rewrite E in H4; discriminate).
      assert (NO : e_off e <> 0) by (unfold moved in H3; unfold is_coll in H4; destruct (e_src e); [lia|lia|discriminate]).
      assert (L' : cmpAt true addTo cmpA (e_att e) (e_cur e) x < 0) by (rewrite H1, cmpAt_addTo; exact L).
      destruct (entryFindItem_spec true addTo cmpA CA joinFn e s x H2 NC L' NO V) as [E1 E2]. rewrite H1, cmpAt_addTo in E2.
      split; [exact E1|]. destruct E2 as [E2|(a & y & r & E2 & E3 & E4 & E5 & E6 & E7)]; [left; exact E2|]. right. exists a, y, r.
      split; [exact E2|]. split; [exact E3|]. split; [exact E4|]. split; [|exact E6]. split; [congruence|]. split; [exact E5|]. split; [exact E7|].
      apply findItem_coll. exact H4.
    - intros HT H L V. rewrite (HT eq_refl) in *. destruct (findB_spec addTo cmpA CA below e s x H ltac:(lia)) as [E1 E2]. split; [exact E1|].
      assert (FX : forall l : list item, Forall (fun z => 0 < cmp z x) l -> Forall (fun z => (- cmp z x <? 0) = true) l).
      { intros l F. eapply Forall_impl; [|exact F]. cbv beta. intros z Hz. apply Z.ltb_lt. lia. }
      destruct E2 as [[E2 E3]|(a & y & r & E2 & E3 & E4 & E5 & E6)]; [left; split; [exact E2|apply FX; exact E3]|]. right. exists a, y, r.
      split; [exact E2|]. split; [apply FX; exact E3|]. split; [apply Z.ltb_ge; lia|]. split; [exact E5|exact E6].
  Qed.

  (** ** The start *)
  Definition startsN (fwd trees : bool) (e : entry) (s : list item) : Prop :=
    e_att e = addTo /\
    match s with
    | [] => e_fin e = true
    | x :: r => e_fin e = false /\ repN fwd trees (getD fwd e) r /\ e_cur (getD fwd e) = x /\ (S (length r) <= e_bound e)%nat
    end.
  Lemma nth_mid (pre suf : list item) z d : nth (length pre) (pre ++ z :: suf) d = z.
  Proof. rewrite app_nth2, Nat.sub_diag by lia. reflexivity. Qed.
  Lemma at_mid (pre suf : list item) z : at_off (pre ++ z :: suf) (Z.of_nat (length pre)) = Some z.
  Proof.
    unfold at_off. destruct (Z.leb_spec 0 (Z.of_nat (length pre))); [|lia].
    destruct (Z.ltb_spec (Z.of_nat (length pre)) (Z.of_nat (length (pre ++ z :: suf)))) as [L|L]; [|rewrite app_length in L; cbn [length] in L; lia].
    cbn [andb]. rewrite Nat2Z.id, nth_error_app2, Nat.sub_diag by lia. reflexivity.
  Qed.
  Lemma start_mem fwd trees v l pr rf : ssorted cmp l -> Forall valid_row l -> startsN fwd trees (startAt cmpA fwd addTo Mem l (markItem v) pr rf) (side fwd v l).
  Proof.
    intros S V. pose proof (split_mark v l S V) as E. pose proof (lower_marks v l V) as FL. pose proof (upper_marks v l V) as FU.
    unfold startAt. pose proof (setList_spec cmpA fwd (markItem v) _ _ FL FU) as SL. rewrite <- E in SL. rewrite SL. clear SL.
    unfold side. remember (filter (fun y => negb (upper cmpA v y)) l) as l1 eqn:E1. remember (filter (upper cmpA v) l) as l2 eqn:E2. clear E1 E2 FL FU.
    destruct fwd.
    - destruct l2 as [|z r]; [split; reflexivity|]. rewrite E at 2. rewrite nth_mid. split; [reflexivity|]. split; [reflexivity|].
      assert (GE : getD true (mkEntry addTo Mem l (Z.of_nat (length l1)) z false pr rf) = mkEntry addTo Mem l (Z.of_nat (length l1) + 1) z false pr rf).
      { unfold getDir, entryGetItem. cbn [e_src e_list e_off]. rewrite E at 1. rewrite at_mid. reflexivity. }
      rewrite GE. unfold repN, repF. cbn [e_att e_cur].
      split; [|split; [reflexivity|unfold e_bound; cbn [e_list e_src]; rewrite E, app_length; cbn [length]; lia]].
      split; [reflexivity|]. split; [|split; [unfold moved; cbn [e_src e_off]; lia|reflexivity]].
      split; [reflexivity|]. cbn [e_src e_att e_list e_off]. rewrite cmpAt_addTo. split; [exact S|]. split; [lia|]. rewrite E. symmetry. apply app_tail_inv.
    - destruct l1 as [|z l1] using rev_ind; [split; reflexivity|]. clear IHl1. rewrite rev_app_distr. cbn [rev app].
      assert (ML : (match l1 ++ [z] with [] => None | _ => Some (length (l1 ++ [z]) - 1)%nat end) = Some (length l1)) by (rewrite app_length; cbn [length]; destruct l1; [reflexivity|]; cbn [app]; f_equal; cbn [length]; lia).
      rewrite ML. rewrite <- app_assoc in E. cbn [app] in E. rewrite E at 2. rewrite nth_mid. split; [reflexivity|]. split; [reflexivity|].
      assert (GE : getD false (mkEntry addTo Mem l (Z.of_nat (length l1)) z false pr rf) = mkEntry addTo Mem l (Z.of_nat (length l1) - 1) z false pr rf).
      { unfold getDir, getItemB. cbn [e_src e_list e_off]. rewrite E at 1. rewrite at_mid. reflexivity. }
      rewrite GE. unfold repN. cbn [e_att e_cur].
      split; [|split; [reflexivity|unfold e_bound; cbn [e_list e_src]; rewrite E, rev_length, app_length; cbn [length]; lia]].
      split; [reflexivity|]. split; [reflexivity|]. exists l1, l2. cbn [set_cur e_list e_cur e_off e_src]. split; [exact E|]. split; [reflexivity|]. split; [exact S|reflexivity].
  Qed.
  Lemma filter_all {T} (f : T -> bool) l : (forall y, In y l -> f y = true) -> filter f l = l.
  Proof. intro H. apply forallb_filter_id. apply forallb_forall. exact H. Qed.
  Lemma filter_nil {T} (f : T -> bool) l : (forall y, In y l -> f y = false) -> filter f l = [].
  Proof. induction l as [|a l IH]; intro H; [reflexivity|]. cbn [filter]. rewrite (H a (or_introl eq_refl)). apply IH. intros y Hy. apply H. right. exact Hy. Qed.

  Lemma start_tree fwd trees v (q : qentry) chain junk : q_att q = addTo -> q_found q = FTree chain junk -> ssorted cmp (flat_map lf_items chain) ->
    Forall valid_row (flat_map lf_items chain) -> found_ok cmp (FTree chain junk) (q_refind q) ->
    reaches_up cmpA v chain (q_refind q (markItem v)) ->
    (fwd = false -> trees = true /\ reaches_down cmpA v chain (q_refind q (markItem v)) /\ page_sizes chain) ->
    startsN fwd trees (startMark cmpA fwd (markItem v) q) (side fwd v (flat_map lf_items chain)).
  Proof.
    intros HA HF S V HO HU HD. set (m := markItem v) in *. unfold startMark. rewrite HF, HA. fold m. cbv zeta.
    destruct HO as (_ & HB & HRf). destruct (HRf m) as [R1 R2]. set (p := q_refind q m) in *.
    destruct (nth_error chain p) as [pg|] eqn:EP; [|apply nth_error_None in EP; lia].
    destruct (page_sorted cmpA chain p pg S V EP) as [PS PV].
    assert (CO : chain_ok cmp chain).
    { split; [exact S|]. split; [exact V|]. intros i pg' Hn Hl. destruct (rows_nth_app _ _ _ Hn Hl) as (p1 & p2 & r & E). apply Forall_forall. intros y Hy. apply (HB p1 pg' p2 r y E Hy). }
    assert (RO : refind_ok cmp chain (q_refind q)).
    { intro x. destruct (HRf x) as [H1 H2]. split; [exact H1|]. apply Forall_forall. exact H2. }
    pose proof (rows_split chain p pg EP) as RS. unfold rows_of in RS.
    assert (LO : forall y, In y (flat_map lf_items (firstn p chain)) -> upper cmpA v y = false).
    { intros y Hy. assert (Vy : ip_valid (ip y) = true).
      { rewrite Forall_forall in V. apply V. rewrite RS. apply in_or_app. left. exact Hy. }
      pose proof (mark_upper v y Vy) as M. fold m in M. destruct (upper cmpA v y); [|reflexivity]. specialize (R2 y Hy). apply (cmp_lt_gt _ OK) in M. lia. }
    assert (HI : forall y, In y (flat_map lf_items (skipn (Datatypes.S p) chain)) -> upper cmpA v y = true).
    { intros y Hy. destruct HU as [HU|(pg' & z & U1 & U2 & U3)].
      - rewrite HU, skipn_all in Hy. destruct Hy.
      - rewrite EP in U1. injection U1 as <-. rewrite Forall_forall in V.
        assert (Vy : ip_valid (ip y) = true) by (apply V; rewrite RS; apply in_or_app; right; apply in_or_app; right; exact Hy).
        assert (Vz : ip_valid (ip z) = true) by (apply V; rewrite RS; apply in_or_app; right; apply in_or_app; left; exact U2).
        pose proof (mark_upper v y Vy) as My. pose proof (mark_upper v z Vz) as Mz. rewrite U3 in Mz. destruct (upper cmpA v y); [reflexivity|].
        rewrite RS in S. apply (ssorted_app cmp) in S as (_ & S & _). apply (ssorted_app cmp) in S as (_ & _ & S). specialize (S z y U2 Hy).
        pose proof (cmp_lt_trans _ OK _ _ _ Mz S). lia. }
    pose proof (split_mark v _ PS PV) as E. pose proof (lower_marks v _ PV) as FL. pose proof (upper_marks v _ PV) as FU.
    unfold startAt. pose proof (setList_spec cmpA fwd m _ _ FL FU) as SL. rewrite <- E in SL. rewrite SL. clear SL.
    assert (SIDE : side fwd v (flat_map lf_items chain) =
      if fwd then filter (upper cmpA v) (lf_items pg) ++ flat_map lf_items (skipn (Datatypes.S p) chain)
      else rev (flat_map lf_items (firstn p chain) ++ filter (fun y => negb (upper cmpA v y)) (lf_items pg))).
    { unfold side. rewrite RS, !filter_app. destruct fwd.
      - rewrite (filter_nil _ _ LO), (filter_all _ _ HI). reflexivity.
      - f_equal. rewrite (filter_all _ (flat_map lf_items (firstn p chain))) by (intros y Hy; rewrite (LO y Hy); reflexivity).
        rewrite (filter_nil _ (flat_map lf_items (skipn (Datatypes.S p) chain))) by (intros y Hy; rewrite (HI y Hy); reflexivity). rewrite app_nil_r. reflexivity. }
    rewrite SIDE. clear SIDE.
    assert (BND : (length (lf_items pg) <= length (flat_map lf_items chain))%nat) by (rewrite RS, !app_length; lia).
    assert (BND2 : (length (flat_map lf_items (firstn p chain)) + length (lf_items pg) + length (flat_map lf_items (skipn (Datatypes.S p) chain)) = length (flat_map lf_items chain))%nat) by (rewrite RS, !app_length; lia).
    destruct fwd.
    - remember (filter (fun y => negb (upper cmpA v y)) (lf_items pg)) as l1 eqn:E1. remember (filter (upper cmpA v) (lf_items pg)) as l2 eqn:E2.
      destruct l2 as [|z r].
      + cbn [app]. destruct HU as [HU|(pg' & y & U1 & U2 & U3)].
        * rewrite HU, skipn_all. split; reflexivity.
        * exfalso. rewrite EP in U1. injection U1 as <-. assert (X : In y []) by (rewrite E2; apply filter_In; split; assumption). destruct X.
      + clear E1 E2 FL FU. rewrite E at 2. rewrite nth_mid. cbn [app]. split; [reflexivity|]. split; [reflexivity|].
        assert (GE : getD true (mkEntry addTo (Tree chain p) (lf_items pg) (Z.of_nat (length l1)) z false (q_predict q) (q_refind q)) =
          mkEntry addTo (Tree chain p) (lf_items pg) (Z.of_nat (length l1) + 1) z false (q_predict q) (q_refind q)).
        { unfold getDir, entryGetItem. cbn [e_src]. replace (2 * (length chain - p) + 2)%nat with (Datatypes.S (2 * (length chain - p) + 1)) by lia.
          cbn [entryGetNextItem e_list e_off]. rewrite E at 1. rewrite at_mid. reflexivity. }
        rewrite GE. split; [|split; [reflexivity|]].
        * split; [reflexivity|]. split; [|split; [unfold moved; cbn [e_src e_off]; lia|reflexivity]].
          split; [reflexivity|]. cbn [e_src e_att e_list e_off e_cur e_refind]. rewrite cmpAt_addTo. split; [exact CO|]. split; [exact RO|].
          exists pg, [], []. split; [exact EP|]. split; [rewrite app_nil_r; reflexivity|]. split; [rewrite E; destruct l1; discriminate|].
          split; [rewrite E at 1; rewrite app_tail_inv; reflexivity|]. right. exists l1, r. split; [exact E|reflexivity].
        * unfold e_bound. cbn [e_list e_src]. rewrite app_length. rewrite E, app_length in BND2. cbn [length] in BND2. rewrite E, app_length. cbn [length]. lia.
    - destruct (HD eq_refl) as (HT & HDn & HZ).
      remember (filter (fun y => negb (upper cmpA v y)) (lf_items pg)) as l1 eqn:E1. remember (filter (upper cmpA v) (lf_items pg)) as l2 eqn:E2.
      destruct l1 as [|z l1] using rev_ind; [|clear IHl1].
      + destruct HDn as [HDn|(pg' & y & U1 & U2 & U3)].
        * rewrite HDn. split; reflexivity.
        * exfalso. rewrite EP in U1. injection U1 as <-. assert (X : In y []) by (rewrite E1; apply filter_In; split; [exact U2|rewrite U3; reflexivity]). destruct X.
      + clear E1 E2 FL FU. rewrite app_assoc, rev_app_distr. cbn [rev app].
        assert (ML : (match l1 ++ [z] with [] => None | _ => Some (length (l1 ++ [z]) - 1)%nat end) = Some (length l1)) by (rewrite app_length; cbn [length]; destruct l1; [reflexivity|]; cbn [app]; f_equal; cbn [length]; lia).
        rewrite ML. rewrite <- app_assoc in E. cbn [app] in E. rewrite E at 2. rewrite nth_mid. split; [reflexivity|]. split; [reflexivity|].
        assert (GE : getD false (mkEntry addTo (Tree chain p) (lf_items pg) (Z.of_nat (length l1)) z false (q_predict q) (q_refind q)) =
          mkEntry addTo (Tree chain p) (lf_items pg) (Z.of_nat (length l1) - 1) z false (q_predict q) (q_refind q)).
        { unfold getDir, getItemB. cbn [e_src]. unfold getNextB. cbn [e_list e_off]. rewrite E at 1. rewrite at_mid. reflexivity. }
        rewrite GE. unfold repN. cbn [e_att e_cur].
        split; [|split; [reflexivity|]].
        * split; [reflexivity|]. split; [reflexivity|]. exists l1, l2. cbn [set_cur e_list e_cur e_off e_src]. split; [exact E|]. split; [reflexivity|].
          split; [exact HT|]. split; [exact S|]. split; [exact V|]. split; [exact HZ|]. split; [exists pg; split; [exact EP|reflexivity]|reflexivity].
        * unfold e_bound. cbn [e_list e_src]. rewrite rev_length, app_length. rewrite E, app_length in BND2. cbn [length] in BND2. rewrite E, app_length. cbn [length]. lia.
  Qed.

  Lemma start_mark fwd v (q : qentry) n : q_att q = addTo -> let R := rows_found (joinFn (q_att q)) (q_found q) in ssorted cmp R ->
    (forall y, In y R -> off (ip y) <> 0%N) -> found_ok cmp (q_found q) (q_refind q) -> dir_ok cmpA fwd v n q ->
    startsN fwd (n =? 1)%nat (startMark cmpA fwd (markItem v) q) (side fwd v R).
  Proof.
    intros HA R S V HO HD. assert (V' : Forall valid_row R).
    { apply Forall_forall. intros y Hy. unfold valid_row, ip_valid. apply negb_true_iff, N.eqb_neq. apply V. exact Hy. }
    destruct (q_found q) as [|l|chain junk|rs] eqn:EF; cbn [rows_found] in R; subst R.
    - unfold startMark. rewrite EF, HA. unfold startsN, side. destruct fwd; cbn [filter rev]; split; reflexivity.
    - unfold startMark. rewrite EF, HA. destruct l as [|x l]; [unfold startsN, side; destruct fwd; cbn [filter rev]; split; reflexivity|].
      apply start_mem; assumption.
    - unfold dir_ok, up_ok, down_ok in HD. rewrite EF in HD.
      apply (start_tree fwd _ v q chain junk HA EF S V' HO); [destruct fwd; [exact HD|apply HD]|]. intros ->. destruct HD as (_ & D1 & D2 & ->).
      split; [reflexivity|]. split; assumption.
    - unfold dir_ok, up_ok, down_ok in HD. rewrite EF in HD. destruct fwd; destruct HD.
  Qed.

  Lemma sees_side fwd v (Cs : list (list item)) (k : skey) p :
    (forall n y, In y (nth n Cs []) -> ip y = p -> upper cmpA v y = fwd) -> (forall n, ssorted cmp (nth n Cs [])) ->
    (forall n y y', In y (nth n Cs []) -> In y' (nth n Cs []) -> ip y = ip y' -> y = y') ->
    sees (map (side fwd v) Cs) k p = sees Cs k p.
  Proof.
    intros H HS HU. unfold sees. apply map_ext_in. intros n _.
    assert (E : nth n (map (side fwd v) Cs) [] = side fwd v (nth n Cs [])).
    { assert (SN : side fwd v [] = []) by (unfold side; destruct fwd; reflexivity). rewrite <- SN at 1. apply map_nth. }
    rewrite E. unfold present. specialize (H n). specialize (HU n).
    destruct (find (fun y => tid_eqb (ip y) p) (nth n Cs [])) as [y|] eqn:F1.
    - apply find_some in F1 as [F1 F2]. apply tid_eqb_eq in F2.
      destruct (find (fun y => tid_eqb (ip y) p) (side fwd v (nth n Cs []))) as [y'|] eqn:F3.
      + apply find_some in F3 as [F3 F4]. apply tid_eqb_eq in F4. apply side_in in F3 as [F3 _]. cbn [option_map]. f_equal. f_equal. apply HU; congruence.
      + exfalso. assert (IN : In y (side fwd v (nth n Cs []))) by (apply side_in; split; [exact F1|apply H; assumption]).
        pose proof (find_none _ _ F3 y IN) as X. cbv beta in X. assert (Y : tid_eqb (ip y) p = true) by (apply tid_eqb_eq; exact F2). congruence.
    - destruct (find (fun y => tid_eqb (ip y) p) (side fwd v (nth n Cs []))) as [y'|] eqn:F3; [|reflexivity]. exfalso.
      apply find_some in F3 as [F3 F4]. apply side_in in F3 as [F3 _]. pose proof (find_none _ _ F1 y' F3) as X. cbv beta in X. congruence.
  Qed.

  Theorem pass_spec fwd v (qs : list qentry) (keys : list skey) sortEnts ksearch :
    query_ok qs keys -> (forall q, In q qs -> q_att q = addTo) -> rows_ok cmp (rows joinFn qs) ->
    (forall q, In q qs -> found_ok cmp (q_found q) (q_refind q)) -> (forall q, In q qs -> dir_ok cmpA fwd v (length qs) q) ->
    filter (fun k => negb (sk_order k)) keys = [ksearch] -> pre_sound ksearch ->
    Permutation (sortEnts (startEntriesD addTo cmpA joinFn below fwd (map (startMark cmpA fwd (markItem v)) qs))) (seq 0 (length qs)) ->
    StronglySorted (fun a b => 0 <= cmpEntDir cmpA fwd (ent (startEntriesD addTo cmpA joinFn below fwd (map (startMark cmpA fwd (markItem v)) qs)) a)
      (ent (startEntriesD addTo cmpA joinFn below fwd (map (startMark cmpA fwd (markItem v)) qs)) b))
      (sortEnts (startEntriesD addTo cmpA joinFn below fwd (map (startMark cmpA fwd (markItem v)) qs))) ->
    let out := passD addTo cmpA joinFn below fwd sortEnts (map (startMark cmpA fwd (markItem v)) qs) keys in
    ssorted (cmpDir cmpA fwd) (map fst out) /\
    (forall p, (exists o, In o out /\ ip (fst o) = p) <->
       (exists q y, In q qs /\ In y (rows_found (joinFn (q_att q)) (q_found q)) /\ upper cmpA v y = fwd /\ ip y = p) /\ says addTo ksearch (sees (rows joinFn qs) ksearch p)) /\
    (forall x re, In (x, re) out -> (exists q, In q qs /\ In x (rows_found (joinFn (q_att q)) (q_found q))) /\ upper cmpA v x = fwd /\
       (re = true <-> asks_recheck (rows joinFn qs) ksearch (ip x))).
  Proof.
    intros HQ Hqa HRW Hfo Hdir HOne HPre HPerm HSort. cbv zeta. pose proof HRW as (HR1 & HR2).
    set (ents0 := map (startMark cmpA fwd (markItem v)) qs) in *. set (started0 := startEntriesD addTo cmpA joinFn below fwd ents0) in *.
    set (C0 := rows joinFn qs) in *. set (Cs := map (side fwd v) C0).
    set (trees := (length qs =? 1)%nat).
    pose proof (cmpDir_total cmpA CA fwd) as OD.
    assert (LC0 : length C0 = length qs) by (unfold C0, rows; rewrite map_length; reflexivity).
    assert (LC : length Cs = length qs) by (unfold Cs; rewrite map_length; exact LC0).
    assert (NC : forall n, nth n Cs [] = side fwd v (nth n C0 [])).
    { intro n. unfold Cs. assert (SN : side fwd v [] = []) by (unfold side; destruct fwd; reflexivity). rewrite <- SN at 1. apply map_nth. }
    assert (QN : forall n, (n < length Cs)%nat -> exists q, nth_error qs n = Some q /\ In q qs /\ ent ents0 n = startMark cmpA fwd (markItem v) q /\
      nth n C0 [] = rows_found (joinFn (q_att q)) (q_found q) /\ In (nth n C0 []) C0).
    { intros n L. rewrite LC in L. destruct (nth_error qs n) as [q|] eqn:E; [|apply nth_error_None in E; lia].
      exists q. split; [reflexivity|]. split; [apply nth_error_In in E; exact E|]. split; [|split; [|apply nth_In; rewrite LC0; exact L]].
      - unfold ent. apply nth_error_nth. unfold ents0. apply map_nth_error. exact E.
      - apply nth_error_nth. unfold C0, rows. apply (map_nth_error (fun q => rows_found (joinFn (q_att q)) (q_found q))). exact E. }
    assert (NI : forall n, In (nth n C0 []) C0 \/ nth n C0 [] = []).
    { intro n. destruct (Nat.lt_ge_cases n (length C0)) as [L|L]; [left; apply nth_In; exact L|right; apply nth_overflow; exact L]. }
    assert (HR0 : forall n y, In y (nth n C0 []) -> ip_valid (ip y) = true).
    { intros n y Hy. destruct (NI n) as [I|I]; [|rewrite I in Hy; destruct Hy]. destruct (HR1 _ I) as [_ V]. specialize (V y Hy).
      unfold ip_valid. apply negb_true_iff, N.eqb_neq. exact V. }
    assert (HS0 : forall n, ssorted cmp (nth n C0 [])).
    { intros n. destruct (NI n) as [I|I]; [apply (HR1 _ I)|rewrite I; constructor]. }
    assert (HA0 : forall n m y y', In y (nth n C0 []) -> In y' (nth m C0 []) -> ip y = ip y' -> cmp y y' = 0).
    { intros n m y y' Hy Hy' E. destruct (NI n) as [I|I]; [|rewrite I in Hy; destruct Hy]. destruct (NI m) as [J|J]; [|rewrite J in Hy'; destruct Hy'].
      apply (HR2 _ _ y y' I J Hy Hy' E). }
    assert (UP0 : forall n m y y', In y (nth n C0 []) -> In y' (nth m C0 []) -> ip y = ip y' -> upper cmpA v y = upper cmpA v y').
    { intros n m y y' Hy Hy' E. pose proof (HA0 n m y y' Hy Hy' E) as Z0. pose proof (mark_upper v y (HR0 n y Hy)) as M. pose proof (mark_upper v y' (HR0 m y' Hy')) as M'.
      destruct (upper cmpA v y), (upper cmpA v y'); try reflexivity; exfalso.
      - pose proof (cmp_lt_le_trans _ OK _ _ _ M ltac:(rewrite Z0; lia)). lia.
      - apply (cmp_sym_eq _ OK) in Z0. pose proof (cmp_lt_le_trans _ OK _ _ _ M' ltac:(rewrite Z0; lia)). lia. }
    assert (UN0 : forall n y y', In y (nth n C0 []) -> In y' (nth n C0 []) -> ip y = ip y' -> y = y').
    { intros n y y' Hy Hy' E. pose proof (HA0 n n y y' Hy Hy' E) as Z0. pose proof (HS0 n) as S.
      destruct (in_split _ _ Hy') as (l1 & l2 & EL). rewrite EL in S, Hy. apply (ssorted_app cmp) in S as (_ & S2 & S3). apply (ssorted_inv cmp) in S2 as [_ S4].
      apply in_app_or in Hy as [Hy|[Hy|Hy]].
      - specialize (S3 y y' Hy (or_introl eq_refl)). lia.
      - symmetry. exact Hy.
      - rewrite Forall_forall in S4. specialize (S4 y Hy). apply (cmp_lt_gt _ OK) in S4. lia. }
    assert (HR : forall n y, In y (nth n Cs []) -> ip_valid (ip y) = true).
    { intros n y Hy. rewrite NC in Hy. apply side_in in Hy as [Hy _]. apply (HR0 n y Hy). }
    assert (HS : forall n, ssorted (cmpDir cmpA fwd) (nth n Cs [])) by (intro n; rewrite NC; apply side_sorted, HS0).
    assert (HA : forall n m y y', In y (nth n Cs []) -> In y' (nth m Cs []) -> ip y = ip y' -> cmpDir cmpA fwd y y' = 0).
    { intros n m y y' Hy Hy' E. rewrite NC in Hy, Hy'. apply side_in in Hy as [Hy _]. apply side_in in Hy' as [Hy' _].
      pose proof (HA0 n m y y' Hy Hy' E) as Z0. unfold cmpDir. rewrite Z0. destruct fwd; reflexivity. }
    assert (BEY : forall n y, In y (nth n Cs []) -> cmpDir cmpA fwd (markItem v) y < 0).
    { intros n y Hy. pose proof (HR n y Hy) as Vy. rewrite NC in Hy. apply side_in in Hy as [Hy U]. pose proof (mark_upper v y Vy) as M. rewrite U in M. unfold cmpDir. destruct fwd; lia. }
    assert (SEE : forall k p, (exists n y, In y (nth n Cs []) /\ ip y = p) -> sees Cs k p = sees C0 k p).
    { intros k p (n & y & Hy & E). rewrite NC in Hy. apply side_in in Hy as [Hy U]. unfold Cs. apply sees_side; [|exact HS0|exact UN0].
      intros m y' Hy' E'. rewrite <- U. apply (UP0 m n y' y Hy' Hy). congruence. }
    assert (HEnts : forall k n, In k keys -> In n (sk_ents k) -> (n < length Cs)%nat).
    { intros k n Hk Hn. destruct HQ as (Q1 & _). destruct (Q1 k n Hk Hn) as (q & E & _). rewrite LC. apply nth_error_Some. rewrite E. discriminate. }
    assert (HPre' : forall k, In k keys -> sk_order k = false -> pre_sound k).
    { intros k Hk Ho. assert (I : In k (filter (fun k => negb (sk_order k)) keys)) by (apply filter_In; split; [exact Hk|rewrite Ho; reflexivity]).
      rewrite HOne in I. destruct I as [<-|[]]. exact HPre. }
    assert (ENT : forall n, ent started0 n = let e := ent ents0 n in if e_fin e then e else getD fwd e).
    { intro n. exact (ent_map (fun e => if e_fin e then e else getD fwd e) ents0 n eq_refl). }
    set (RP := repN fwd trees).
    assert (FE : forall n, (n < length Cs)%nat ->
      fent cmpA fwd Cs keys RP addTo (markItem v) n (ent started0 n) /\ above cmpA fwd (markItem v) (ent started0 n) /\
      (rem cmpA fwd Cs n (ent started0 n) <= e_bound (ent ents0 n))%nat).
    { intros n L. destruct (QN n L) as (q & E & I & E2 & E3 & E4). rewrite ENT, E2. cbv zeta.
      assert (ST : startsN fwd trees (startMark cmpA fwd (markItem v) q) (nth n Cs [])).
      { rewrite NC, E3. apply start_mark; [apply Hqa; exact I| | |apply Hfo; exact I|apply Hdir; exact I]; rewrite <- E3; apply (HR1 _ E4). }
      destruct ST as [AT ST]. destruct (nth n Cs []) as [|x r] eqn:EC.
      - rewrite ST. split; [|split; [intro F; congruence|unfold rem; rewrite ST; lia]]. split; [exact AT|]. left. split; [exact ST|]. rewrite EC. intros y [].
      - destruct ST as (F & S1 & S2 & S3). rewrite F.
        assert (SP : nth n Cs [] = [] ++ e_cur (getD fwd (startMark cmpA fwd (markItem v) q)) :: r) by (rewrite S2, EC; reflexivity).
        split; [|split].
        + split; [|right; exists [], r; split; [exact SP|]; split; [exact S1|intros y []]].
          clear - S1. unfold repN in S1. destruct fwd; destruct S1 as [S1 _]; exact S1.
        + intros _. apply (BEY n). rewrite SP. left. reflexivity.
        + rewrite (rem_split addTo cmpA CA joinFn below fwd Cs HR HS HA RP (repN_fin fwd trees) (repN_bound fwd trees) (repN_get fwd trees)) with (don := []) (rest := r);
            [exact S3| |exact SP|apply (repN_fin fwd trees _ _ S1)].
          intros L1 e s z. apply repN_find. intros _. unfold trees. apply Nat.eqb_neq. lia. }
    set (st0 := mkFst started0 (sortEnts started0) (map (fun k => (k, startScanKey)) keys) None).
    assert (LS : length started0 = length Cs) by (unfold started0, startEntriesD, ents0; rewrite !map_length; symmetry; exact LC).
    assert (RDY : ready addTo cmpA joinFn below fwd Cs keys RP addTo (markItem v) st0).
    { split; [|split].
      - change (FI cmpA fwd Cs keys RP addTo (markItem v) started0 (sortEnts started0)).
        split; [exact LS|]. split; [rewrite LC; exact HPerm|]. split; [|intros n L; apply (FE n L)].
        unfold desc. revert HSort. apply SSorted_ext. intros a b Ha Hb H.
        assert (La : (a < length Cs)%nat) by (apply (Permutation_in _ HPerm) in Ha; apply in_seq in Ha; lia).
        assert (Lb : (b < length Cs)%nat) by (apply (Permutation_in _ HPerm) in Hb; apply in_seq in Hb; lia).
        rewrite cmpE_O with (att0 := addTo) in H; [exact H|apply (FE a La)|apply (FE b Lb)].
      - intros n L. apply (FE n L).
      - cbn [st0 f_keys]. rewrite map_map. cbn [fst]. apply map_id. }
    assert (TT : (total cmpA fwd Cs (fst (readied addTo cmpA joinFn below fwd st0)) < S (total_bound ents0))%nat).
    { change (fst (readied addTo cmpA joinFn below fwd st0)) with started0. rewrite ScanFast.bound_sum. unfold total. apply Nat.lt_succ_r.
      unfold ents0 at 2. rewrite map_length, LC. apply fsum_le. intros n Hn. apply in_seq in Hn. apply FE. rewrite LC. lia. }
    assert (HFnd : (1 < length Cs)%nat -> forall e s x, RP e s -> cmpDir cmpA fwd (e_cur e) x < 0 -> ip_valid (ip x) = true ->
      e_att (findD fwd e x) = e_att e /\
      ((e_fin (findD fwd e x) = true /\ Forall (fun z => (cmpDir cmpA fwd z x <? 0) = true) s) \/
       (exists a y r, s = a ++ y :: r /\ Forall (fun z => (cmpDir cmpA fwd z x <? 0) = true) a /\ (cmpDir cmpA fwd y x <? 0) = false /\
          RP (findD fwd e x) r /\ e_cur (findD fwd e x) = y))).
    { intros L1 e s z. apply repN_find. intros _. unfold trees. apply Nat.eqb_neq. lia. }
    pose proof (runFastD_spec addTo cmpA CA joinFn below fwd Cs keys HR HS HA RP (repN_fin fwd trees) (repN_bound fwd trees) (repN_get fwd trees) HFnd addTo HPre' ksearch HOne HEnts
      (S (total_bound ents0)) st0 (markItem v) RDY TT) as RUN. cbv zeta in RUN.
    change (runFastD addTo cmpA joinFn below fwd (S (total_bound ents0)) st0) with (passD addTo cmpA joinFn below fwd sortEnts ents0 keys) in RUN.
    set (out := passD addTo cmpA joinFn below fwd sortEnts ents0 keys) in *. destruct RUN as (R1 & R2 & R3).
    assert (IN : forall x, (exists m, (m < length Cs)%nat /\ In x (nth m Cs [])) <-> (exists q, In q qs /\ In x (rows_found (joinFn (q_att q)) (q_found q)) /\ upper cmpA v x = fwd)).
    { intro x. split.
      - intros (m & L & I). destruct (QN m L) as (q & _ & Iq & _ & E & _). exists q. rewrite <- E. rewrite NC in I. apply side_in in I. split; [exact Iq|exact I].
      - intros (q & Iq & I & U). destruct (In_nth_error _ _ Iq) as (m & E). assert (L : (m < length Cs)%nat) by (rewrite LC; apply nth_error_Some; rewrite E; discriminate).
        exists m. split; [exact L|]. destruct (QN m L) as (q' & E' & _ & _ & E3 & _). rewrite E in E'. apply Some_inj in E'. subst q'. rewrite NC, E3. apply side_in. split; assumption. }
    unfold good in R2, R3.
    split; [exact R1|]. split.
    - intro p. split.
      + intros ([x re] & O1 & O2). cbn [fst] in O2. destruct (R2 _ _ O1) as (_ & J1 & J2 & _).
        assert (SX : sees Cs ksearch (ip x) = sees C0 ksearch (ip x)) by (apply SEE; destruct J1 as (m & _ & J1); exists m, x; auto).
        rewrite SX in J2. apply IN in J1 as (q & J1 & J3 & J4). split; [exists q, x; auto|]. rewrite <- O2. exact J2.
      + intros [(q & y & Q1 & Q2 & QU & Q3) G]. assert (X : exists m, (m < length Cs)%nat /\ In y (nth m Cs [])) by (apply IN; exists q; auto).
        destruct X as (m & L & I). rewrite <- Q3 in G. rewrite <- SEE in G by (exists m, y; auto). destruct (R3 m y L I (BEY m y I) G) as (o & O1 & O2).
        exists o. split; [exact O1|congruence].
    - intros x re Ho. destruct (R2 _ _ Ho) as (_ & J1 & _ & J3).
      assert (SX : sees Cs ksearch (ip x) = sees C0 ksearch (ip x)) by (apply SEE; destruct J1 as (m & _ & J1); exists m, x; auto).
      rewrite SX in J3. apply IN in J1 as (q & J1 & J4 & J5). split; [exists q; auto|]. split; [exact J5|]. rewrite J3. apply recheck_iff.
  Qed.

  (** ** Both passes *)
  Lemma pass_nodup fwd (C0 : list (list item)) (out : list (item * bool)) : ssorted (cmpDir cmpA fwd) (map fst out) ->
    (forall C C' y y', In C C0 -> In C' C0 -> In y C -> In y' C' -> ip y = ip y' -> cmp y y' = 0) ->
    (forall x re, In (x, re) out -> exists C, In C C0 /\ In x C) -> NoDup (map (fun o => ip (fst o)) out).
  Proof.
    intros S HA. induction out as [|[x re] out IH]; intro H; [constructor|]. cbn [map fst] in *. apply (ssorted_inv (cmpDir cmpA fwd)) in S as [S F]. constructor.
    - intro I. apply in_map_iff in I as ([y ry] & E & I). cbn [fst] in E. rewrite Forall_forall in F.
      assert (L : cmpDir cmpA fwd x y < 0) by (apply F; apply in_map_iff; exists (y, ry); auto).
      destruct (H x re (or_introl eq_refl)) as (C & HC & Hx). destruct (H y ry (or_intror I)) as (C' & HC' & Hy).
      pose proof (HA C C' x y HC HC' Hx Hy (eq_sym E)) as Z0. unfold cmpDir in L. rewrite Z0 in L. destruct fwd; cbn in L; lia.
    - apply IH; [exact S|]. intros y ry Hy. apply (H y ry). right. exact Hy.
  Qed.
  Lemma upper_dist v d y fwd : one_sided cmpA fwd v d -> (forall a, add y = Some a -> ~ onside cmpA fwd v a) -> d (add y) = None.
  Proof. intros HD H. destruct (add y) as [a|]; [apply (os_out _ _ _ _ HD); apply H; reflexivity|apply (os_null _ _ _ _ HD)]. Qed.
  Lemma pass_near fwd v d (l : list item) : one_sided cmpA fwd v d -> ssorted (cmpDir cmpA fwd) l -> (forall y, In y l -> upper cmpA v y = fwd) -> nearest_first d l.
  Proof.
    intros HD. induction l as [|x l IH]; intros S U; [constructor|]. apply (ssorted_inv (cmpDir cmpA fwd)) in S as [S F]. constructor.
    - apply IH; [exact S|]. intros y Hy. apply U. right. exact Hy.
    - apply Forall_forall. intros y Hy. rewrite Forall_forall in F. specialize (F y Hy).
      pose proof (U x (or_introl eq_refl)) as Ux. pose proof (U y (or_intror Hy)) as Uy. unfold upper in Ux, Uy. unfold cmpDir, compareRumItem in F.
      destruct (add x) as [a|] eqn:EX, (add y) as [b|] eqn:EY.
      + assert (OX : onside cmpA fwd v a) by (unfold onside; destruct fwd; [apply Z.leb_le; exact Ux|apply Z.leb_gt in Ux; apply (cmp_gt_lt _ CA) in Ux; lia]).
        assert (OY : onside cmpA fwd v b) by (unfold onside; destruct fwd; [apply Z.leb_le; exact Uy|apply Z.leb_gt in Uy; apply (cmp_gt_lt _ CA) in Uy; lia]).
        destruct (d (Some a)) as [da|] eqn:DA; [|exfalso; exact (os_in _ _ _ _ HD a OX DA)].
        destruct (d (Some b)) as [db|] eqn:DB; [|exact I]. cbn [dist_le]. apply (os_mono _ _ _ _ HD a b da db OX OY); [|exact DA|exact DB].
        destruct fwd.
        * destruct (Z.eqb_spec (cmpA a b) 0); lia.
        * apply (cmp_le_sym _ CA). destruct (Z.eqb_spec (cmpA a b) 0); lia.
      + rewrite (os_null _ _ _ _ HD). destruct (d (Some a)); exact I.
      + exfalso. destruct fwd; [discriminate|lia].
      + rewrite (os_null _ _ _ _ HD). exact I.
  Qed.

  Theorem natural_spec fwd v (qs : list qentry) (keys : list skey) sortEnts ksearch :
    query_ok qs keys -> (forall q, In q qs -> q_att q = addTo) -> rows_ok cmp (rows joinFn qs) ->
    (forall q, In q qs -> found_ok cmp (q_found q) (q_refind q)) -> (forall q, In q qs -> down_ok cmpA v (length qs) q) ->
    filter (fun k => negb (sk_order k)) keys = [ksearch] -> pre_sound ksearch -> sorts_dir cmpA sortEnts ->
    let out := naturalScan addTo cmpA joinFn below sortEnts fwd v qs keys in
    NoDup (map (fun o => ip (fst o)) out) /\
    (forall p, (exists o, In o out /\ ip (fst o) = p) <->
       (exists q y, In q qs /\ In y (rows_found (joinFn (q_att q)) (q_found q)) /\ ip y = p) /\ says addTo ksearch (sees (rows joinFn qs) ksearch p)) /\
    (forall x re, In (x, re) out -> (exists q, In q qs /\ In x (rows_found (joinFn (q_att q)) (q_found q))) /\ (re = true <-> asks_recheck (rows joinFn qs) ksearch (ip x))) /\
    (exists near far, out = near ++ far /\ (forall o, In o near -> upper cmpA v (fst o) = fwd) /\ (forall o, In o far -> upper cmpA v (fst o) = negb fwd) /\
       ssorted (cmpDir cmpA fwd) (map fst near) /\ ssorted (cmpDir cmpA (negb fwd)) (map fst far)) /\
    forall d, one_sided cmpA fwd v d ->
      (fwd = false -> forall q y a, In q qs -> In y (rows_found (joinFn (q_att q)) (q_found q)) -> add y = Some a -> cmpA v a <> 0) ->
      nearest_first d (map fst out).
  Proof.
    intros HQ Hqa HRW Hfo Hdn HOne HPre HSrt. cbv zeta.
    assert (HD : forall dir q, In q qs -> dir_ok cmpA dir v (length qs) q).
    { intros dir q Iq. specialize (Hdn q Iq). unfold dir_ok. destruct dir; [|exact Hdn]. unfold up_ok. unfold down_ok in Hdn. destruct (q_found q); try exact Hdn. apply Hdn. }
    assert (PS : forall dir, let out := passD addTo cmpA joinFn below dir (sortEnts dir) (map (startMark cmpA dir (markItem v)) qs) keys in
      ssorted (cmpDir cmpA dir) (map fst out) /\
      (forall p, (exists o, In o out /\ ip (fst o) = p) <->
         (exists q y, In q qs /\ In y (rows_found (joinFn (q_att q)) (q_found q)) /\ upper cmpA v y = dir /\ ip y = p) /\ says addTo ksearch (sees (rows joinFn qs) ksearch p)) /\
      (forall x re, In (x, re) out -> (exists q, In q qs /\ In x (rows_found (joinFn (q_att q)) (q_found q))) /\ upper cmpA v x = dir /\
         (re = true <-> asks_recheck (rows joinFn qs) ksearch (ip x)))).
    { intro dir. destruct (HSrt dir (startEntriesD addTo cmpA joinFn below dir (map (startMark cmpA dir (markItem v)) qs))) as [P1 P2].
      unfold startEntriesD in P1 at 2. rewrite !map_length in P1.
      apply pass_spec; try assumption. intros q Iq. apply HD. exact Iq. }
    unfold naturalScan. destruct (PS fwd) as (A1 & A2 & A3). destruct (PS (negb fwd)) as (B1 & B2 & B3). clear PS.
    set (near := passD addTo cmpA joinFn below fwd (sortEnts fwd) (map (startMark cmpA fwd (markItem v)) qs) keys) in *.
    set (far := passD addTo cmpA joinFn below (negb fwd) (sortEnts (negb fwd)) (map (startMark cmpA (negb fwd) (markItem v)) qs) keys) in *.
    pose proof HRW as [HR1 HR2].
    assert (RIN : forall x, (exists q, In q qs /\ In x (rows_found (joinFn (q_att q)) (q_found q))) -> exists C, In C (rows joinFn qs) /\ In x C).
    { intros x (q & Iq & Ix). exists (rows_found (joinFn (q_att q)) (q_found q)). split; [unfold rows; apply in_map_iff; exists q; auto|exact Ix]. }
    assert (CROSS : forall x rx y ry, In (x, rx) near -> In (y, ry) far -> ip x <> ip y).
    { intros x rx y ry Hx Hy E. destruct (A3 _ _ Hx) as (Qx & Ux & _). destruct (B3 _ _ Hy) as (Qy & Uy & _).
      destruct (RIN _ Qx) as (C & C1 & C2). destruct (RIN _ Qy) as (C' & C1' & C2'). pose proof (HR2 C C' x y C1 C1' C2 C2' E) as Z0.
      assert (Vx : ip_valid (ip x) = true) by (unfold ip_valid; apply negb_true_iff, N.eqb_neq; apply (HR1 C C1); exact C2).
      assert (Vy : ip_valid (ip y) = true) by (unfold ip_valid; apply negb_true_iff, N.eqb_neq; apply (HR1 C' C1'); exact C2').
      pose proof (mark_upper v x Vx) as Mx. pose proof (mark_upper v y Vy) as My. rewrite Ux in Mx. rewrite Uy in My. destruct fwd; cbn [negb] in My.
      - pose proof (cmp_lt_le_trans _ OK _ _ _ Mx ltac:(rewrite Z0; lia)). lia.
      - apply (cmp_sym_eq _ OK) in Z0. pose proof (cmp_lt_le_trans _ OK _ _ _ My ltac:(rewrite Z0; lia)). lia. }
    split; [|split; [|split; [|split]]].
    - rewrite map_app. assert (N1 : NoDup (map (fun o => ip (fst o)) near)) by (apply (pass_nodup fwd (rows joinFn qs)); [exact A1|exact HR2|intros x re Hx; apply RIN; apply (A3 _ _ Hx)]).
      assert (N2 : NoDup (map (fun o => ip (fst o)) far)) by (apply (pass_nodup (negb fwd) (rows joinFn qs)); [exact B1|exact HR2|intros x re Hx; apply RIN; apply (B3 _ _ Hx)]).
      assert (X : forall p, In p (map (fun o => ip (fst o)) near) -> ~ In p (map (fun o => ip (fst o)) far)).
      { intros p Hp Hp'. apply in_map_iff in Hp as ([x rx] & E & Hx). apply in_map_iff in Hp' as ([y ry] & E' & Hy). cbn [fst] in E, E'. apply (CROSS x rx y ry Hx Hy). congruence. }
      clear - N1 N2 X. induction (map (fun o => ip (fst o)) near) as [|a l IH]; [exact N2|]. cbn [app]. inversion N1; subst. constructor.
      + intro I. apply in_app_or in I as [I|I]; [auto|]. apply (X a); [left; reflexivity|exact I].
      + apply IH; [assumption|]. intros p Hp. apply X. right. exact Hp.
    - intro p. split.
      + intros (o & O1 & O2). apply in_app_or in O1 as [O1|O1].
        * destruct (proj1 (A2 p) (ex_intro _ o (conj O1 O2))) as [(q & y & Q1 & Q2 & _ & Q3) G]. split; [exists q, y; auto|exact G].
        * destruct (proj1 (B2 p) (ex_intro _ o (conj O1 O2))) as [(q & y & Q1 & Q2 & _ & Q3) G]. split; [exists q, y; auto|exact G].
      + intros [(q & y & Q1 & Q2 & Q3) G]. destruct (bool_dec (upper cmpA v y) fwd) as [U|U].
        * destruct (proj2 (A2 p)) as (o & O1 & O2); [split; [exists q, y; auto|exact G]|]. exists o. split; [apply in_or_app; left; exact O1|exact O2].
        * assert (U' : upper cmpA v y = negb fwd) by (destruct (upper cmpA v y), fwd; cbn; congruence).
          destruct (proj2 (B2 p)) as (o & O1 & O2); [split; [exists q, y; auto|exact G]|]. exists o. split; [apply in_or_app; right; exact O1|exact O2].
    - intros x re Hx. apply in_app_or in Hx as [Hx|Hx]; [destruct (A3 _ _ Hx) as (Q & _ & R)|destruct (B3 _ _ Hx) as (Q & _ & R)]; split; assumption.
    - exists near, far. split; [reflexivity|]. split; [intros [x re] Ho; apply (A3 _ _ Ho)|]. split; [intros [x re] Ho; apply (B3 _ _ Ho)|]. split; assumption.
    - intros d HOS HNE. rewrite map_app. unfold nearest_first. apply SSorted_app.
      assert (FAR : forall y, In y (map fst far) -> d (add y) = None).
      { intros y Hy. apply in_map_iff in Hy as ([y' ry] & E & Hy). cbn [fst] in E. subst y'. destruct (B3 _ _ Hy) as ((q & Iq & Iy) & U & _).
        apply (upper_dist v d y fwd HOS). intros a Ea ON. unfold upper in U. rewrite Ea in U. unfold onside in ON. destruct fwd; cbn [negb] in U.
        - apply Z.leb_gt in U. lia.
        - apply Z.leb_le in U. specialize (HNE eq_refl q y a Iq Iy Ea). assert (L : cmpA v a < 0) by lia. apply (cmp_lt_gt _ CA) in L. lia. }
      split; [|split].
      + apply (pass_near fwd v d); [exact HOS|exact A1|]. intros y Hy. apply in_map_iff in Hy as ([y' ry] & E & Hy). cbn [fst] in E. subst y'. apply (A3 _ _ Hy).
      + clear - FAR. induction (map fst far) as [|y l IH]; [constructor|]. constructor; [apply IH; intros z Hz; apply FAR; right; exact Hz|].
        apply Forall_forall. intros z Hz. rewrite (FAR z (or_intror Hz)). destruct (d (add y)); exact I.
      + intros x y _ Hy. rewrite (FAR y Hy). destruct (d (add x)); exact I.
  Qed.
End Nat.
