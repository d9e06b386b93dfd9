(** Proofs about one query key of a natural-order scan (NatScan.v): where it starts and what it gives. *)
From Verif Require Import Base Ord OrdProof LeafPage LeafProof ScanEntry ScanEntryProof TidBitmap Scan ScanSpec ScanRegular ScanFast NatScan ScanFastD.
From Coq Require Import NArith ZArith Bool Arith List Lia.
Import ListNotations.
Local Open Scope Z_scope.

Section Search.
  Context {A : Type}.
  Variable cmpA : A -> A -> Z.
  Notation item := (item A).
  Notation cmp := (compareRumItem true cmpA).

  Lemma markSearch_spec (m : item) (l1 l2 : list item) : Forall (fun y => 0 < cmp m y) l1 -> Forall (fun y => cmp m y < 0) l2 ->
    forall fuel lo hi, (lo <= length l1 <= hi)%nat -> (hi <= length (l1 ++ l2))%nat -> (hi - lo < fuel)%nat ->
    markSearch cmpA fuel (l1 ++ l2) m lo hi = inr (length l1).
  Proof.
    intros F1 F2. induction fuel as [|f IH]; intros lo hi H1 H2 H3; [lia|]. cbn [markSearch].
    destruct (Nat.ltb_spec lo hi) as [L|L]; [|f_equal; lia]. cbv zeta.
    pose proof (Nat.div_lt (hi - lo) 2 ltac:(lia) ltac:(lia)) as HD. set (o := (lo + (hi - lo) / 2)%nat).
    assert (HO : (lo <= o < hi)%nat) by (unfold o; lia).
    destruct (Nat.lt_ge_cases o (length l1)) as [LO|LO].
    - rewrite app_nth1 by exact LO. rewrite Forall_forall in F1. pose proof (F1 _ (nth_In l1 item_min LO)) as P.
      destruct (Z.ltb_spec (cmp m (nth o l1 item_min)) 0); [lia|]. destruct (Z.ltb_spec 0 (cmp m (nth o l1 item_min))); [|lia].
      apply IH; lia.
    - rewrite app_length in H2. rewrite app_nth2 by exact LO. rewrite Forall_forall in F2.
      assert (LO' : (o - length l1 < length l2)%nat) by lia. pose proof (F2 _ (nth_In l2 item_min LO')) as P.
      destruct (Z.ltb_spec (cmp m (nth (o - length l1) l2 item_min)) 0); [|lia]. apply IH; [lia|rewrite app_length; lia|lia].
  Qed.
  Lemma setList_spec fwd (m : item) (l1 l2 : list item) : Forall (fun y => 0 < cmp m y) l1 -> Forall (fun y => cmp m y < 0) l2 ->
    setListPosition cmpA fwd (l1 ++ l2) m =
      if fwd then match l2 with [] => None | _ => Some (length l1) end else match l1 with [] => None | _ => Some (length l1 - 1)%nat end.
  Proof.
    intros F1 F2. unfold setListPosition. rewrite (markSearch_spec m l1 l2 F1 F2) by (rewrite ?app_length; lia). destruct fwd.
    - rewrite app_length. destruct l2; cbn [length]; destruct (Nat.leb_spec (length l1 + 0) (length l1)); try lia; try reflexivity.
      all: match goal with |- context [(?a <=? ?b)%nat] => destruct (Nat.leb_spec a b); [lia|reflexivity] end.
    - destruct l1; cbn [length]; [reflexivity|]. f_equal. lia.
  Qed.
End Search.

(** ** The in-page index, backward *)
Section Back.
  Context {A : Type}.
  Variables (addTo : N) (cmpA : A -> A -> Z).
  Hypothesis CA : total_cmp cmpA.
  Variable below : item A.
  Notation item := (item A).
  Notation entry := (entry A).
  Notation cmp := (compareRumItem true cmpA).
  Let OK : total_cmp cmp := cri_total true cmpA CA.

  Lemma build_idx_full maxoff : (33 <= maxoff)%nat -> forall (l : list item) i j prev, (i + length l = maxoff + 1)%nat -> (1 <= i)%nat ->
    ((i - 1) * 33 <= (j + 1) * maxoff)%nat -> (32 <= j + length (build_idx i j maxoff prev l))%nat.
  Proof.
    intros HM. induction l as [|x r IH]; intros i j prev H1 Hi H2; cbn [build_idx length] in *.
    - nia.
    - unfold RumDataLeafIndexCount. destruct (Nat.ltb_spec ((j + 1) * maxoff) (i * (32 + 1))) as [L|L].
      + cbn [length]. specialize (IH (S i) (S j) x ltac:(lia) ltac:(lia) ltac:(nia)). lia.
      + apply IH; nia.
  Qed.
  Lemma narrowB_pos (items : list item) (x : item) : forall ix j first, Forall (idx_ok item_min items) ix -> (j + length ix = 32)%nat ->
    (1 <= first <= length items)%nat ->
    let '(f, m) := narrowB cmpA ix x false j first (length items) in (1 <= f <= length items)%nat /\ (1 <= m <= length items)%nat.
  Proof.
    induction ix as [|e r IH]; intros j first F L H; cbn [narrowB]; [lia|].
    apply Forall_cons_iff in F as [(k & E1 & E2 & _) F]. destruct (_ || _).
    - cbn [length] in L. apply IH; [exact F|lia|lia].
    - split; [exact H|]. unfold RumDataLeafIndexCount. destruct (Nat.ltb_spec (j + 1) 32) as [J|J]; [|lia].
      destruct r as [|e' r]; [cbn [length] in L; lia|]. apply Forall_cons_iff in F as [(k' & E1' & E2' & _) F]. lia.
  Qed.
  Lemma dense4 (a b c d : item) r : (length (a :: b :: c :: d :: r) <= 32)%nat -> exists ix,
    updateItemIndexes item_min (a :: b :: c :: d :: r) = mkIdx item_min 1 :: mkIdx a 2 :: mkIdx b 3 :: mkIdx c 4 :: ix.
  Proof.
    intro H. unfold updateItemIndexes. set (n := length (a :: b :: c :: d :: r)) in *. cbn [build_idx]. unfold RumDataLeafIndexCount.
    repeat match goal with |- context [(?u <? ?v)%nat] => destruct (Nat.ltb_spec u v); [|lia] end. eexists. reflexivity.
  Qed.
  (** Looking left of the first row of a page of one, two, or more than three rows. *)
  Lemma scanB_first (pg : leaf A) (e : entry) x rest : lf_items pg = x :: rest -> ssorted cmp (x :: rest) -> ip_valid (ip x) = true ->
    length (x :: rest) <> 3%nat -> exists l o, scanPageB cmpA below pg e x false = (set_list e l o, false).
  Proof.
    intros E SS V N3. unfold scanPageB. rewrite E.
    assert (KEY : exists f m, narrowB cmpA (updateItemIndexes item_min (x :: rest)) x false 0 1 (length (x :: rest)) = (f, m) /\
      (1 <= f <= length (x :: rest))%nat /\ (1 <= m <= length (x :: rest))%nat).
    { destruct (Nat.le_gt_cases 33 (length (x :: rest))) as [L|L].
      - destruct (narrowB _ _ _ _ _ _ _) as [f m] eqn:EN. exists f, m. split; [reflexivity|].
        pose proof (narrowB_pos (x :: rest) x (updateItemIndexes item_min (x :: rest)) 0 1) as P. rewrite EN in P. apply P; [| |cbn [length]; lia].
        + apply (build_idx_ok item_min (x :: rest) []); reflexivity.
        + pose proof (index_count item_min (x :: rest)) as U. unfold RumDataLeafIndexCount in U.
          pose proof (build_idx_full (length (x :: rest)) L (x :: rest) 1 0 item_min ltac:(lia) ltac:(lia) ltac:(lia)) as W.
          unfold updateItemIndexes in U |- *. lia.
      - assert (MIN : cmp item_min x < 0).
        { pose proof (cmpAt_min true addTo cmpA addTo x V) as M. unfold cmpAt, altOf in M. rewrite N.eqb_refl in M. exact M. }
        assert (XX : cmp x x = 0) by apply (tc_refl _ OK).
        destruct rest as [|b [|c [|d r]]].
        + cbn [length updateItemIndexes build_idx Nat.mul Nat.add Nat.ltb Nat.leb RumDataLeafIndexCount narrowB i_key i_off].
          destruct (Z.ltb_spec (cmp item_min x) 0); [|lia]. cbn [orb]. exists 1%nat, 1%nat. cbn. split; [reflexivity|lia].
        + cbn [length updateItemIndexes build_idx Nat.mul Nat.add Nat.ltb Nat.leb RumDataLeafIndexCount narrowB i_key i_off].
          destruct (Z.ltb_spec (cmp item_min x) 0); [|lia]. cbn [orb]. rewrite XX. cbn. exists 2%nat, 2%nat. split; [reflexivity|lia].
        + cbn [length] in N3. lia.
        + destruct (dense4 x b c d r ltac:(lia)) as (ix & ->). cbn [narrowB i_key i_off].
          destruct (Z.ltb_spec (cmp item_min x) 0); [|lia]. cbn [orb]. rewrite XX. cbn [Z.ltb Z.leb Z.compare negb andb orb].
          apply (ssorted_inv cmp) in SS as [_ SS]. apply Forall_cons_iff in SS as [SS _]. apply (cmp_lt_gt _ OK) in SS.
          destruct (Z.ltb_spec (cmp b x) 0); [lia|]. destruct (Z.leb_spec (cmp b x) 0); [lia|]. cbn [andb orb].
          exists 2%nat, 4%nat. split; [reflexivity|]. cbn [length] in *. lia. }
    destruct KEY as (f & m & -> & Hf & Hm). cbv zeta. set (first := if (m <=? f)%nat then 1%nat else f).
    assert (H1 : (1 <= first <= m)%nat) by (unfold first; destruct (Nat.leb_spec m f); lia).
    assert (NE : exists y l', firstn (m + 1 - first) (skipn (first - 1) (x :: rest)) = y :: l' /\ In y (x :: rest)).
    { destruct (skipn (first - 1) (x :: rest)) as [|y l'] eqn:ES.
      - exfalso. apply (f_equal (@length item)) in ES. rewrite skipn_length in ES. cbn [length] in ES, Hm. lia.
      - replace (m + 1 - first)%nat with (S (m - first))%nat by lia. cbn [firstn]. exists y, (firstn (m - first)%nat l'). split; [reflexivity|].
        rewrite <- (firstn_skipn (first - 1) (x :: rest)), ES. apply in_or_app. right. left. reflexivity. }
    destruct NE as (y & l' & -> & Hy). cbn [scan_bound].
    assert (XY : cmp x y <= 0).
    { destruct Hy as [<-|Hy]; [rewrite (tc_refl _ OK); lia|]. apply (ssorted_inv cmp) in SS as [_ SS]. rewrite Forall_forall in SS. specialize (SS y Hy). lia. }
    destruct (Z.leb_spec (cmp x y) 0); [|lia]. rewrite andb_false_r. cbn [Z.of_nat Z.sub Z.add Z.opp at_off Z.leb Z.compare andb].
    eexists. eexists. reflexivity.
  Qed.

  (** [repB trees e s]: [e] stands on a row and goes down to the rows [s]. *)
  Definition sizes_ok (chain : list (leaf A)) : Prop := forall pg, In pg chain -> length (lf_items pg) <> 0%nat /\ length (lf_items pg) <> 3%nat.
  Definition repB (trees : bool) (e : entry) (s : list item) : Prop :=
    e_att e = addTo /\ e_fin e = false /\
    exists pre suf, e_list e = pre ++ e_cur e :: suf /\ e_off e = Z.of_nat (length pre) - 1 /\
    match e_src e with
    | Mem => ssorted cmp (e_list e) /\ s = rev pre
    | Tree chain pos => trees = true /\ ssorted cmp (flat_map lf_items chain) /\ Forall valid_row (flat_map lf_items chain) /\ sizes_ok chain /\
        (exists pg, nth_error chain pos = Some pg /\ lf_items pg = e_list e) /\ s = rev (flat_map lf_items (firstn pos chain) ++ pre)
    | Coll _ _ => False
    end.

  Lemma at_off_pre (pre : list item) c suf o : o = Z.of_nat (length pre) - 1 ->
    at_off (pre ++ c :: suf) o = match rev pre with [] => None | y :: _ => Some y end.
  Proof.
    intros ->. destruct pre as [|y pre] using rev_ind; [reflexivity|]. clear IHpre. rewrite rev_app_distr. cbn [rev app].
    unfold at_off. rewrite app_length. cbn [length]. destruct (Z.leb_spec 0 (Z.of_nat (length pre + 1) - 1)); [|lia].
    destruct (Z.ltb_spec (Z.of_nat (length pre + 1) - 1) (Z.of_nat (length ((pre ++ [y]) ++ c :: suf)))) as [L|L]; [|rewrite !app_length in L; cbn [length] in L; lia].
    cbn [andb]. replace (Z.to_nat (Z.of_nat (length pre + 1) - 1)) with (length pre) by lia. rewrite <- app_assoc. cbn [app].
    rewrite nth_error_app2, Nat.sub_diag by lia. reflexivity.
  Qed.
  Lemma page_sorted (chain : list (leaf A)) pos pg : ssorted cmp (flat_map lf_items chain) -> Forall valid_row (flat_map lf_items chain) ->
    nth_error chain pos = Some pg -> ssorted cmp (lf_items pg) /\ Forall valid_row (lf_items pg).
  Proof.
    intros S V H. assert (E := rows_split chain pos pg H). unfold rows_of in E. rewrite E in S, V. split.
    - apply (ssorted_app cmp) in S as (_ & S & _). apply (ssorted_app cmp) in S as (S & _). exact S.
    - apply Forall_app in V as [_ V]. apply Forall_app in V as [V _]. exact V.
  Qed.
  Lemma repB_fin trees e s : repB trees e s -> e_fin e = false. Proof. intros (_ & H & _). exact H. Qed.
  Lemma repB_bound trees e s : repB trees e s -> (length s + 1 <= e_bound e)%nat.
  Proof.
    intros (_ & _ & pre & suf & E & _ & H). unfold e_bound. rewrite E, app_length. cbn [length]. destruct (e_src e) as [|chain pos|]; [| |destruct H].
    - destruct H as [_ ->]. rewrite rev_length. lia.
    - destruct H as (_ & _ & _ & _ & _ & ->). rewrite rev_length, app_length.
      assert (LE : (length (flat_map lf_items (firstn pos chain)) <= length (flat_map lf_items chain))%nat).
      { rewrite <- (firstn_skipn pos chain) at 2. rewrite flat_map_app, app_length. lia. }
      lia.
  Qed.
  Lemma getB_spec trees e s : repB trees e s ->
    e_att (getItemB cmpA below e) = e_att e /\
    match s with [] => e_fin (getItemB cmpA below e) = true | x :: r => repB trees (getItemB cmpA below e) r /\ e_cur (getItemB cmpA below e) = x end.
  Proof.
    intros (H1 & H2 & pre & suf & HL & HO & H). unfold getItemB. destruct (e_src e) as [|chain pos|] eqn:ES; [| |destruct H].
    - destruct H as [HS ->]. pose proof HL as HA. apply (f_equal (fun l => at_off l (e_off e))) in HA. rewrite (at_off_pre pre _ suf _ HO) in HA. rewrite HA.
      destruct pre as [|y pre] using rev_ind; [split; reflexivity|]. clear IHpre. rewrite rev_app_distr. cbn [rev app].
      split; [reflexivity|]. split; [|reflexivity]. unfold repB. cbn [set_cur e_att e_fin e_list e_cur e_off e_src]. rewrite ES.
      split; [exact H1|]. split; [exact H2|]. exists pre, (e_cur e :: suf). split; [rewrite HL, <- app_assoc; reflexivity|].
      split; [rewrite HO, app_length; cbn [length]; lia|]. split; [exact HS|reflexivity].
    - destruct H as (HT & HS & HV & HZ & (pg & HN & HP) & ->). unfold getNextB.
      pose proof HL as HA. apply (f_equal (fun l => at_off l (e_off e))) in HA. rewrite (at_off_pre pre _ suf _ HO) in HA. rewrite HA.
      destruct pre as [|y pre] using rev_ind; [|clear IHpre].
      + cbn [rev]. rewrite app_nil_r. rewrite HN. cbn [app] in HL.
        destruct (page_sorted chain pos pg HS HV HN) as [PS PV]. rewrite HP, HL in PS, PV.
        destruct (scanB_first pg e (e_cur e) suf) as (l & o & ->); [congruence|exact PS|apply Forall_cons_iff in PV as [PV _]; exact PV| |].
        { rewrite <- HL, <- HP. apply HZ. apply nth_error_In in HN. exact HN. }
        destruct pos as [|p]; [split; reflexivity|].
        destruct (nth_error chain p) as [pg'|] eqn:EP; [|apply nth_error_None in EP; assert (L : (S p < length chain)%nat) by (apply nth_error_Some; congruence); lia].
        assert (FE : firstn (S p) chain = firstn p chain ++ [pg']).
        { clear - EP. revert p EP. induction chain as [|c ch IH]; intros [|p] EP; try discriminate; cbn [nth_error] in EP.
          - injection EP as ->. reflexivity.
          - cbn [firstn app]. f_equal. apply (IH p EP). }
        rewrite FE, flat_map_app. cbn [flat_map]. rewrite app_nil_r. destruct (HZ pg' (nth_error_In _ _ EP)) as [Z0 _].
        destruct (lf_items pg') as [|z l'] eqn:EL using rev_ind; [cbn in Z0; lia|clear IHl']. rewrite app_assoc, rev_app_distr. cbn [rev app].
        assert (LA : listAt below (l' ++ [z]) (Z.of_nat (length (l' ++ [z])) - 1) = z).
        { unfold listAt. rewrite app_length. cbn [length]. destruct (Z.ltb_spec (Z.of_nat (length l' + 1) - 1) 0); [lia|].
          replace (Z.to_nat (Z.of_nat (length l' + 1) - 1)) with (length l') by lia. rewrite app_nth2, Nat.sub_diag by lia. reflexivity. }
        rewrite LA. split; [reflexivity|]. split; [|reflexivity]. unfold repB. cbn [set_cur set_list set_src e_att e_fin e_list e_cur e_off e_src].
        split; [exact H1|]. split; [exact H2|]. exists l', []. split; [reflexivity|]. split; [rewrite app_length; cbn [length]; lia|].
        split; [exact HT|]. split; [exact HS|]. split; [exact HV|]. split; [exact HZ|]. split; [exists pg'; split; [exact EP|exact EL]|reflexivity].
      + rewrite rev_app_distr. cbn [rev app]. rewrite app_assoc, rev_app_distr. cbn [rev app].
        split; [reflexivity|]. split; [|reflexivity]. unfold repB. cbn [set_cur e_att e_fin e_list e_cur e_off e_src]. rewrite ES.
        split; [exact H1|]. split; [exact H2|]. exists pre, (e_cur e :: suf). split; [rewrite HL, <- app_assoc; reflexivity|].
        split; [rewrite HO, app_length; cbn [length]; lia|]. split; [exact HT|]. split; [exact HS|]. split; [exact HV|]. split; [exact HZ|].
        split; [exists pg; split; [exact HN|exact HP]|reflexivity].
  Qed.

  (** ** Skipping, in a posting list *)
  Lemma find_down_spec x : forall (l : list item) o, match find_down cmpA l x o with
    | None => Forall (fun z => 0 < cmp z x) l
    | Some (y, o') => exists a r, l = a ++ y :: r /\ Forall (fun z => 0 < cmp z x) a /\ cmp y x <= 0 /\ o' = o - Z.of_nat (length a)
    end.
  Proof.
    induction l as [|y r IH]; intro o; cbn [find_down]; [constructor|]. destruct (Z.leb_spec (cmp y x) 0) as [L|L].
    - exists [], r. split; [reflexivity|]. split; [constructor|]. split; [exact L|]. cbn [length]. lia.
    - specialize (IH (o - 1)). destruct (find_down cmpA r x (o - 1)) as [[y' o']|].
      + destruct IH as (a & r' & -> & F & L' & ->). exists (y :: a), r'. split; [reflexivity|]. split; [constructor; assumption|]. split; [exact L'|]. cbn [length]. lia.
      + constructor; assumption.
  Qed.
  Lemma findB_spec e s x : repB false e s -> 0 < cmp (e_cur e) x ->
    e_att (findItemB cmpA below e x) = e_att e /\
    ((e_fin (findItemB cmpA below e x) = true /\ Forall (fun z => 0 < cmp z x) s) \/
     (exists a y r, s = a ++ y :: r /\ Forall (fun z => 0 < cmp z x) a /\ cmp y x <= 0 /\ repB false (findItemB cmpA below e x) r /\ e_cur (findItemB cmpA below e x) = y)).
  Proof.
    intros (H1 & H2 & pre & suf & HL & HO & H) HX. destruct (e_src e) as [|chain pos|] eqn:ES; [|destruct H as [H _]; discriminate|destruct H].
    destruct H as [HS ->]. unfold findItemB. 
    assert (NZ : (length (e_list e) =? 0)%nat = false) by (apply Nat.eqb_neq; rewrite HL, app_length; cbn [length]; lia). rewrite NZ.
    assert (NG : (cmp (e_cur e) x <=? 0) = false) by (apply Z.leb_gt; exact HX). rewrite NG. cbn [andb]. rewrite ES.
    pose proof HL as HA. apply (f_equal (fun l => at_off l (e_off e))) in HA. rewrite (at_off_pre pre _ suf _ HO) in HA. rewrite HA.
    destruct (Z.leb_spec (cmp (nth 0 (e_list e) item_min) x) 0) as [LF|LF].
    - destruct pre as [|y pre] using rev_ind; [|clear IHpre].
      { exfalso. rewrite HL in LF. cbn [app nth] in LF. lia. }
      rewrite rev_app_distr. cbn [rev app].
      assert (FN : rev (firstn (S (Z.to_nat (e_off e))) (e_list e)) = rev (pre ++ [y])).
      { rewrite HL, HO, app_length. cbn [length]. replace (S (Z.to_nat (Z.of_nat (length pre + 1) - 1))) with (length (pre ++ [y]) + 0)%nat by (rewrite app_length; cbn [length]; lia).
        rewrite firstn_app_2. cbn [firstn]. rewrite app_nil_r. reflexivity. }
      rewrite FN. pose proof (find_down_spec x (rev (pre ++ [y])) (e_off e)) as FD.
      destruct (find_down cmpA (rev (pre ++ [y])) x (e_off e)) as [[z o]|].
      + destruct FD as (a & r & E & F & L & ->). split; [reflexivity|]. right. exists a, z, r. rewrite rev_app_distr in E. cbn [rev app] in E. rewrite E.
        split; [reflexivity|]. split; [exact F|]. split; [exact L|]. split; [|reflexivity]. unfold repB. cbn [set_cur e_att e_fin e_list e_cur e_off e_src]. rewrite ES.
        split; [exact H1|]. split; [exact H2|].
        assert (EP : pre ++ [y] = rev r ++ z :: rev a).
        { pose proof (f_equal (@rev item) E) as E'. cbn [rev] in E'. rewrite rev_involutive, rev_app_distr in E'. cbn [rev] in E'. rewrite <- app_assoc in E'. exact E'. }
        exists (rev r), (rev a ++ e_cur e :: suf). split; [rewrite HL, EP, <- app_assoc; reflexivity|]. split.
        * rewrite HO, EP, app_length, !rev_length. cbn [length]. rewrite rev_length. lia.
        * split; [exact HS|]. rewrite rev_involutive. reflexivity.
      + split; [reflexivity|]. left. split; [reflexivity|]. rewrite rev_app_distr in FD. cbn [rev app] in FD. exact FD.
    - split; [reflexivity|]. left. split; [reflexivity|]. apply Forall_forall. intros z Hz. apply in_rev in Hz.
      assert (HD : cmp (nth 0 (e_list e) item_min) z <= 0).
      { destruct (e_list e) as [|h t]; [destruct pre; discriminate|]. cbn [nth]. assert (IZ : In z (h :: t)) by (rewrite HL; apply in_or_app; left; exact Hz).
        destruct IZ as [<-|IZ]; [rewrite (tc_refl _ OK); lia|]. apply (ssorted_inv cmp) in HS as [_ HS]. rewrite Forall_forall in HS. specialize (HS z IZ). lia. }
      apply (cmp_lt_gt _ OK). apply (cmp_lt_le_trans _ OK x (nth 0 (e_list e) item_min) z); [apply (cmp_gt_lt _ OK); exact LF|exact HD].
  Qed.
End Back.
