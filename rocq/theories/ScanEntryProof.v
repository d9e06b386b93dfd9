(** Proofs about one query key of a scan. *)
From Verif Require Import Base Ord OrdProof LeafPage LeafProof ScanEntry.
From Coq Require Import NArith ZArith Bool Arith List Lia.
Import ListNotations.
Local Open Scope Z_scope.

Lemma cip_gt a b : 0 < rumCompareItemPointers a b <-> rumCompareItemPointers b a < 0.
Proof. symmetry. apply (tc_anti _ cip_total). Qed.

Lemma firstn_skipn_nth {T} (d : T) n l : (n < length l)%nat -> skipn n l = nth n l d :: skipn (S n) l.
Proof.
  revert n. induction l as [|a l IH]; intros n H; [simpl in H; lia|]. destruct n as [|n]; [reflexivity|].
  simpl in H. cbn [skipn nth]. rewrite (IH n) by lia. reflexivity.
Qed.

Lemma skipn_skipn_ {T} n m (l : list T) : skipn n (skipn m l) = skipn (n + m) l.
Proof.
  revert l. induction m as [|m IH]; intro l; [rewrite Nat.add_0_r; reflexivity|].
  rewrite Nat.add_succ_r. destruct l as [|a l]; [rewrite !skipn_nil; reflexivity|]. cbn [skipn]. apply IH.
Qed.

Section EntryFacts.
  Context {A : Type}.
  Variables (useAlt : bool) (addTo : N) (cmpA : A -> A -> Z).
  Hypothesis CA : total_cmp cmpA.
  Variable joinFn : joins A.
  Notation item := (item A).
  Notation entry := (entry A).
  Notation cmpAt := (cmpAt useAlt addTo cmpA).
  Notation scanPage := (scanPage useAlt addTo cmpA).
  Notation entryGetNextItem := (entryGetNextItem useAlt addTo cmpA).
  Notation entryGetItem := (entryGetItem useAlt addTo cmpA joinFn).
  Notation entryFindItem := (entryFindItem useAlt addTo cmpA).

  Lemma cmpAt_total att : total_cmp (cmpAt att).
  Proof. apply cri_total. exact CA. Qed.
  Hint Resolve cmpAt_total : core.
  Lemma cmpAt_eq_ip att x y : cmpAt att x y = 0 -> ip x = ip y.
  Proof. clear joinFn.
    unfold ScanEntry.cmpAt, compareRumItem. destruct (altOf useAlt addTo att).
    - destruct (add x), (add y); try (intro; lia); try (intro H; apply cip_eq; exact H).
      destruct (Z.eqb_spec (cmpA a a0) 0); [intro H; apply cip_eq; exact H|lia].
    - intro H. apply cip_eq. exact H.
  Qed.
  Lemma cmpAt_min att x : ip_valid (ip x) = true -> cmpAt att item_min x < 0.
  Proof. clear joinFn.
    unfold ip_valid. intro V. assert (Z : rumCompareItemPointers ip_min (ip x) < 0).
    { apply cip_lt. destruct (ip x) as [b o]. cbn [blk off ip_min] in *. apply negb_true_iff, N.eqb_neq in V. lia. }
    unfold ScanEntry.cmpAt, compareRumItem, item_min. cbn [add ip]. destruct (altOf _ _ _); [|exact Z].
    destruct (add x); [lia|exact Z].
  Qed.

  Lemma forallb_filter_id {T} (f : T -> bool) l : forallb f l = true -> filter f l = l.
  Proof. induction l as [|a l IH]; intro H; [reflexivity|]. cbn [forallb] in H. apply andb_true_iff in H as [H1 H2]. cbn [filter]. rewrite H1, IH; auto. Qed.

  (** ** scanPage *)
  Definition before (cmp : item -> item -> Z) (eqOk : bool) (x y : item) : bool :=
    (cmp y x <? 0) || ((cmp y x <=? 0) && negb eqOk).
  Lemma before_mono (cmp : item -> item -> Z) (OK : total_cmp cmp) eqOk x y z : before cmp eqOk x y = true -> cmp z y <= 0 -> before cmp eqOk x z = true.
  Proof.
    unfold before. intros H L. apply orb_true_iff in H as [H|H].
    - apply Z.ltb_lt in H. assert (cmp z x < 0) by (eapply (cmp_le_lt_trans _ OK); eauto). lia.
    - apply andb_true_iff in H as [H1 H2]. apply Z.leb_le in H1.
      assert (cmp z x <= 0) by (eapply (tc_trans _ OK); eauto). destruct eqOk; [discriminate|]. lia.
  Qed.
  Lemma not_before_ge cmp eqOk x y : before cmp eqOk x y = false -> 0 <= cmp y x.
  Proof. unfold before. destruct eqOk; simpl; lia. Qed.

  Lemma scan_narrow_spec (cmp : item -> item -> Z) (OK : total_cmp cmp) items x eqOk ix : forall first,
    Forall (idx_ok item_min items) ix -> cmp item_min x < 0 ->
    (1 <= first)%nat -> (first <= length items \/ length items = 0 /\ first = 1)%nat ->
    (forall k, (k < first - 1)%nat -> before cmp eqOk x (nth k items item_min) = true) ->
    ssorted cmp items ->
    let '(f, m) := scan_narrow cmp ix x eqOk first (length items) in
    (1 <= f)%nat /\ (m <= length items)%nat /\
    (forall k, (k < f - 1)%nat -> before cmp eqOk x (nth k items item_min) = true) /\
    ((m = length items /\ (f <= length items \/ length items = 0 /\ f = 1)%nat) \/
     ((f <= m)%nat /\ (1 <= m)%nat /\ before cmp eqOk x (nth (m - 1) items item_min) = false)).
  Proof.
    induction ix as [|e r IH]; intros first Hix Hmin H1 H2 Hpre Hs; cbn [scan_narrow].
    - repeat split; auto.
    - apply Forall_cons_iff in Hix as [(k & Ho & Hk & Hkey) Hr].
      fold (before cmp eqOk x (i_key e)).
      destruct (before cmp eqOk x (i_key e)) eqn:L.
      + apply IH; auto; try lia. rewrite Ho. intros k' Hk'.
        destruct k as [|k0]; [lia|]. rewrite Hkey in L.
        destruct (Nat.eq_dec k' k0) as [->|Hne]; [exact L|].
        eapply before_mono; eauto. pose proof (ssorted_nth cmp items item_min Hs k' k0 ltac:(lia) ltac:(lia)). lia.
      + rewrite Ho. replace (S k - 1)%nat with k by lia.
        split; [exact H1|]. split; [lia|]. split; [exact Hpre|]. right.
        destruct k as [|k0].
        * rewrite Hkey in L. unfold before in L. lia.
        * rewrite Hkey in L. replace (S k0 - 1)%nat with k0 by lia.
          assert (first <= S k0)%nat; [|repeat split; auto; lia].
          destruct (Nat.le_gt_cases first (S k0)) as [|G]; [assumption|].
          specialize (Hpre k0 ltac:(lia)). congruence.
  Qed.

  Lemma scan_bound_spec (cmp : item -> item -> Z) x : forall l i,
    match scan_bound cmp l x i with
    | None => Forall (fun y => 0 < cmp x y) l
    | Some (b, eq) => exists l1 y l2, l = l1 ++ y :: l2 /\ b = (i + length l1)%nat /\
        Forall (fun y => 0 < cmp x y) l1 /\ cmp x y <= 0 /\ (eq = true <-> cmp x y = 0)
    end.
  Proof.
    induction l as [|y r IH]; intro i; cbn [scan_bound]; [constructor|].
    destruct (Z.leb_spec (cmp x y) 0) as [L|L].
    - exists [], y, r. repeat split; auto; try (simpl; lia); apply Z.eqb_eq.
    - specialize (IH (S i)). destruct (scan_bound cmp r x (S i)) as [[b eq]|].
      + destruct IH as (l1 & z & l2 & -> & -> & Hf & Hz & He). exists (y :: l1), z, l2.
        split; [reflexivity|]. split; [simpl; lia|]. split; [constructor; assumption|]. split; assumption.
      + constructor; assumption.
  Qed.

  Lemma at_off_in (l1 : list item) y l2 : at_off (l1 ++ y :: l2) (Z.of_nat (length l1)) = Some y.
  Proof.
    unfold at_off. rewrite app_length. cbn [length].
    replace (0 <=? Z.of_nat (length l1)) with true by (symmetry; apply Z.leb_le; lia).
    replace (_ <? _) with true by (symmetry; apply Z.ltb_lt; lia).
    cbn [andb]. rewrite Nat2Z.id, nth_error_app2, Nat.sub_diag by lia. reflexivity.
  Qed.
  Lemma at_off_end (l : list item) o : Z.of_nat (length l) <= o -> at_off l o = None.
  Proof. intro H. unfold at_off. replace (_ <? _) with false by (symmetry; apply Z.ltb_ge; lia). rewrite andb_false_r. reflexivity. Qed.

  Definition same (e e' : entry) : Prop :=
    e_att e' = e_att e /\ e_src e' = e_src e /\ e_fin e' = e_fin e /\ e_predict e' = e_predict e /\ e_refind e' = e_refind e.

  Lemma scanPage_spec pg rm e x eqOk :
    let cmp := cmpAt (e_att e) in
    ssorted cmp (lf_items pg) -> (rm = false -> Forall (fun y => cmp y (lf_bound pg) <= 0) (lf_items pg)) ->
    ip_valid (ip x) = true ->
    let '(e', found) := scanPage pg rm e x eqOk in
    same e e' /\
    (if found then exists pre l1 y l2 post, lf_items pg = pre ++ (l1 ++ y :: l2) ++ post /\
       Forall (fun z => before cmp eqOk x z = true) (pre ++ l1) /\ before cmp eqOk x y = false /\
       e_list e' = l1 ++ y :: l2 /\ e_off e' = Z.of_nat (length l1) + 1 /\ e_cur e' = y
     else Forall (fun z => before cmp eqOk x z = true) (lf_items pg) /\ e_cur e' = e_cur e).
  Proof.
    intros cmp Hs Hb Hv. pose proof (cmpAt_total (e_att e) : total_cmp cmp) as OK.
    unfold ScanEntry.scanPage. cbv zeta. fold cmp.
    destruct (negb rm && _) eqn:B.
    { split; [repeat split|]. split; [|reflexivity].
      apply andb_true_iff in B as [B1 B2]. destruct rm; [discriminate|]. specialize (Hb eq_refl).
      eapply Forall_impl; [|exact Hb]. intros z Hz. cbn beta in Hz.
      apply (before_mono cmp OK eqOk x (lf_bound pg) z); [exact B2|exact Hz]. }
    clear B.
    assert (Hix : Forall (idx_ok item_min (lf_items pg)) (updateItemIndexes item_min (lf_items pg)))
      by (apply (build_idx_ok item_min (lf_items pg) []); reflexivity).
    pose proof (scan_narrow_spec cmp OK (lf_items pg) x eqOk _ 1 Hix (cmpAt_min _ _ Hv) ltac:(lia)) as N.
    specialize (N ltac:(destruct (lf_items pg); simpl; lia) ltac:(intros; lia) Hs).
    destruct (scan_narrow cmp _ x eqOk 1 (length (lf_items pg))) as [f m].
    destruct N as (Hf1 & Hm & Hpre & Hcase).
    set (items := lf_items pg) in *.
    set (pre := firstn (f - 1) items). set (l := firstn (m + 1 - f) (skipn (f - 1) items)).
    set (post := skipn (m + 1 - f) (skipn (f - 1) items)).
    assert (Hi : items = pre ++ l ++ post) by (unfold pre, l, post; rewrite !firstn_skipn; reflexivity).
    assert (Fpre : Forall (fun z => before cmp eqOk x z = true) pre).
    { apply Forall_forall. intros z Hz. unfold pre in Hz.
      apply (In_nth _ _ item_min) in Hz as (k & Hk & <-).
      rewrite firstn_length in Hk. assert (E : nth k (firstn (f - 1) items) item_min = nth k items item_min).
      { rewrite <- (firstn_skipn (f - 1) items) at 2. rewrite app_nth1 by (rewrite firstn_length; lia). reflexivity. }
      rewrite E. apply Hpre. lia. }
    (* in the second case the last loaded item is not before *)
    assert (Hend : post = [] \/ exists z l', l = l' ++ [z] /\ before cmp eqOk x z = false).
    { destruct Hcase as [(-> & Hfl)|(Hfm & Hm1 & Hlast)].
      - left. unfold post. apply skipn_all2. rewrite skipn_length. lia.
      - right. exists (nth (m - 1) items item_min), (firstn (m - f) (skipn (f - 1) items)). split; [|exact Hlast].
        unfold l. replace (m + 1 - f)%nat with (S (m - f)) by lia.
        assert (Hsk : skipn (m - f) (skipn (f - 1) items) = nth (m - 1) items item_min :: skipn (S (m - f)) (skipn (f - 1) items)).
        { rewrite (firstn_skipn_nth item_min) by (rewrite skipn_length; lia). f_equal.
          rewrite <- (firstn_skipn (f - 1) items) at 2.
          rewrite app_nth2; rewrite firstn_length; [|lia].
          replace (Nat.min (f - 1) (length items)) with (f - 1)%nat by lia. f_equal. lia. }
        rewrite <- (firstn_skipn (m - f) (skipn (f - 1) items)) at 1. rewrite Hsk.
        rewrite firstn_app. rewrite firstn_firstn. rewrite firstn_length, skipn_length.
        replace (Nat.min (S (m - f)) (m - f)) with (m - f)%nat by lia. f_equal.
        replace (S (m - f) - Nat.min (m - f) (length items - (f - 1)))%nat with 1%nat by lia. reflexivity. }
    assert (Blt : forall z, 0 < cmp x z -> before cmp eqOk x z = true).
    { intros z Hz. apply (cmp_gt_lt _ OK) in Hz. unfold before. apply Z.ltb_lt in Hz. rewrite Hz. reflexivity. }
    pose proof (scan_bound_spec cmp x l 0) as SB.
    destruct (scan_bound cmp l x 0) as [[b eq]|].
    - destruct SB as (l1 & y & l2 & Hl & -> & Fl1 & Hy & He).
      destruct (eq && negb eqOk) eqn:Q.
      + apply andb_true_iff in Q as [-> Q]. destruct eqOk; [discriminate|]. clear Q.
        pose proof (proj1 He eq_refl) as Exy.
        assert (By : before cmp false x y = true). { unfold before. apply (cmp_sym_eq _ OK) in Exy. rewrite Exy. reflexivity. }
        destruct l2 as [|z l3].
        * rewrite Hl. rewrite at_off_end by (rewrite app_length; simpl; lia).
          split; [repeat split|]. split; [|reflexivity].
          destruct Hend as [Hp|(z & l' & Hz & Bz)].
          -- rewrite Hi, Hp, Hl, app_nil_r. apply Forall_app. split; [exact Fpre|]. apply Forall_app. split; [|constructor; [exact By|constructor]].
             eapply Forall_impl; [|exact Fl1]. intros; apply Blt; assumption.
          -- exfalso. rewrite Hl in Hz. apply app_inj_tail in Hz as [_ ->]. congruence.
        * rewrite Hl. replace (l1 ++ y :: z :: l3) with ((l1 ++ [y]) ++ z :: l3) by (rewrite <- app_assoc; reflexivity).
          replace (Z.of_nat (0 + length l1) + 1) with (Z.of_nat (length (l1 ++ [y]))) by (rewrite app_length; simpl; lia).
          rewrite at_off_in. split; [repeat split|].
          exists pre, (l1 ++ [y]), z, l3, post. cbn [e_list e_off e_cur set_cur set_list]. repeat split; auto.
          -- replace ((l1 ++ [y]) ++ z :: l3) with l by (rewrite Hl, <- app_assoc; reflexivity). exact Hi.
          -- apply Forall_app. split; [exact Fpre|]. apply Forall_app. split; [|constructor; [exact By|constructor]].
             eapply Forall_impl; [|exact Fl1]. intros; apply Blt; assumption.
          -- assert (cmp y z < 0).
             { rewrite Hi in Hs. apply (ssorted_app cmp) in Hs as (_ & Hs & _). apply (ssorted_app cmp) in Hs as (Hs & _).
               rewrite Hl in Hs. apply (ssorted_app cmp) in Hs as (_ & Hs & _). apply (ssorted_inv cmp) in Hs as [_ Hf].
               rewrite Forall_forall in Hf. apply Hf. left; reflexivity. }
             assert (cmp x z < 0) by (eapply (cmp_le_lt_trans _ OK); eauto). apply (cmp_lt_gt _ OK) in H0.
             unfold before. destruct (Z.ltb_spec (cmp z x) 0); [lia|]. destruct (Z.leb_spec (cmp z x) 0); [lia|]. reflexivity.
      + rewrite Hl. cbn [Nat.add]. rewrite at_off_in. split; [repeat split|].
        exists pre, l1, y, l2, post. cbn [e_list e_off e_cur set_cur set_list]. repeat split; auto.
        * rewrite <- Hl. exact Hi.
        * apply Forall_app. split; [exact Fpre|]. eapply Forall_impl; [|exact Fl1]. intros; apply Blt; assumption.
        * assert (0 <= cmp y x) by (apply (cmp_le_sym _ OK); exact Hy). unfold before.
          destruct (Z.ltb_spec (cmp y x) 0); [lia|]. destruct eqOk; [rewrite andb_false_r; reflexivity|].
          destruct eq; [discriminate|]. destruct (Z.leb_spec (cmp y x) 0) as [L|L]; [|reflexivity].
          assert (cmp y x = 0) as E by lia. apply (cmp_sym_eq _ OK) in E. apply He in E. discriminate.
    - split; [repeat split|]. split; [|reflexivity].
      assert (Fl : Forall (fun z => before cmp eqOk x z = true) l).
      { eapply Forall_impl; [|exact SB]. intros; apply Blt; assumption. }
      destruct Hend as [Hp|(z & l' & Hz & Bz)].
      + rewrite Hi, Hp, app_nil_r. apply Forall_app. split; assumption.
      + exfalso. rewrite Hz in Fl. apply Forall_app in Fl as [_ Fl]. apply Forall_cons_iff in Fl as [Fl _]. congruence.
  Qed.

  (** ** the rows an entry is still to give *)
  Definition rows_of (chain : list (leaf A)) : list item := flat_map (@lf_items A) chain.
  Definition valid_row (x : item) : Prop := ip_valid (ip x) = true.
  (** A leaf level: rows ascending from page to page, right bounds not below the page's rows. *)
  Definition chain_ok (cmp : item -> item -> Z) (chain : list (leaf A)) : Prop :=
    ssorted cmp (rows_of chain) /\ Forall valid_row (rows_of chain) /\
    forall i pg, nth_error chain i = Some pg -> is_last chain i = false -> Forall (fun y => cmp y (lf_bound pg) <= 0) (lf_items pg).
  (** Where the descent for [x] may arrive: every page before holds only smaller rows. *)
  Definition refind_ok (cmp : item -> item -> Z) (chain : list (leaf A)) (refind : item -> nat) : Prop :=
    forall x, (refind x < length chain)%nat /\ Forall (fun y => cmp y x < 0) (rows_of (firstn (refind x) chain)).

  (** The rows [collect_loop] makes of sorted input: equal TIDs joined. *)
  Fixpoint collapse (join : option (A -> A -> A)) (c : option item) (rest : list item) : list item :=
    match rest with
    | [] => match c with None => [] | Some y => [y] end
    | x :: r =>
        match c with
        | None => collapse join (Some x) r
        | Some y =>
            if rumCompareItemPointers (ip y) (ip x) =? 0
            then collapse join (Some (mkItem (ip x) (joinAdd join (add y) (add x)))) r
            else y :: collapse join (Some x) r
        end
    end.

  (** [rep e s]: the entry is not finished and is going to give the rows [s]. *)
  Definition rep (e : entry) (s : list item) : Prop :=
    let cmp := cmpAt (e_att e) in
    e_fin e = false /\
    match e_src e with
    | Mem => ssorted cmp (e_list e) /\ 0 <= e_off e /\ s = skipn (Z.to_nat (e_off e)) (e_list e)
    | Tree chain pos =>
        chain_ok cmp chain /\ refind_ok cmp chain (e_refind e) /\
        exists pg pre post, nth_error chain pos = Some pg /\ lf_items pg = pre ++ e_list e ++ post /\
          e_list e <> [] /\ s = skipn (Z.to_nat (e_off e)) (e_list e) ++ post ++ rows_of (skipn (S pos) chain) /\
          ((e_off e = 0 /\ post = []) \/
           exists l1 l2, e_list e = l1 ++ e_cur e :: l2 /\ e_off e = Z.of_nat (length l1) + 1)
    | Coll rest c =>
        e_list e = [] /\
        s = match c with CMax => [] | CMin => collapse (joinFn (e_att e)) None rest | CItem x => collapse (joinFn (e_att e)) (Some x) rest end
    end.

  Lemma rows_split (chain : list (leaf A)) pos pg : nth_error chain pos = Some pg ->
    rows_of chain = rows_of (firstn pos chain) ++ lf_items pg ++ rows_of (skipn (S pos) chain).
  Proof.
    intro H. unfold rows_of. revert chain H. induction pos as [|pos IH]; intros [|c chain] H; try discriminate.
    - cbn in H. injection H as ->. reflexivity.
    - cbn [nth_error] in H. cbn [firstn skipn flat_map]. rewrite (IH _ H) at 1. rewrite <- app_assoc. reflexivity.
  Qed.
  Lemma rows_next (chain : list (leaf A)) pos pg : nth_error chain pos = Some pg -> rows_of (skipn pos chain) = lf_items pg ++ rows_of (skipn (S pos) chain).
  Proof.
    revert chain. induction pos as [|pos IH]; intros [|c chain] H; try discriminate; cbn [nth_error] in H.
    - injection H as ->. reflexivity.
    - cbn [skipn]. rewrite (IH chain H). reflexivity.
  Qed.
  Lemma page_facts chain pos pg att : chain_ok (cmpAt att) chain -> nth_error chain pos = Some pg ->
    ssorted (cmpAt att) (lf_items pg) /\ Forall valid_row (lf_items pg) /\
    (is_last chain pos = false -> Forall (fun y => cmpAt att y (lf_bound pg) <= 0) (lf_items pg)).
  Proof.
    intros (Hs & Hv & Hb) H. rewrite (rows_split _ _ _ H) in Hs, Hv. repeat split.
    - apply (ssorted_app (cmpAt att)) in Hs as (_ & Hs & _). apply (ssorted_app (cmpAt att)) in Hs as (Hs & _). exact Hs.
    - apply Forall_app in Hv as [_ Hv]. apply Forall_app in Hv as [Hv _]. exact Hv.
    - apply Hb. exact H.
  Qed.
  Lemma is_last_iff (chain : list (leaf A)) pos : is_last chain pos = true <-> S pos = length chain.
  Proof. unfold is_last. apply Nat.eqb_eq. Qed.

  Lemma border_none (cmp : item -> item -> Z) (cur : item) l i : Forall (fun y => cmp cur y < 0) l -> border cmp cur l i = -1.
  Proof.
    revert i. induction l as [|y r IH]; intros i F; [reflexivity|]. apply Forall_cons_iff in F as [H F]. cbn [border].
    destruct (Z.ltb_spec 0 (cmp cur y)); [lia|]. apply IH. exact F.
  Qed.

  Lemma app_tail_inv (l1 l2 : list item) y : skipn (Z.to_nat (Z.of_nat (length l1) + 1)) (l1 ++ y :: l2) = l2.
  Proof.
    replace (Z.to_nat (Z.of_nat (length l1) + 1)) with (S (length l1)) by lia.
    replace (l1 ++ y :: l2) with ((l1 ++ [y]) ++ l2) by (rewrite <- app_assoc; reflexivity).
    rewrite skipn_app, app_length. cbn [length].
    replace (S (length l1) - (length l1 + 1))%nat with 0%nat by lia.
    rewrite skipn_all2 by (rewrite app_length; simpl; lia). reflexivity.
  Qed.

  (** The entry was asked for a row at least once. *)
  Definition moved (e : entry) : Prop := match e_src e with Coll _ _ => True | _ => 0 < e_off e end.

  (** One turn of entryGetNextItem when the loaded part is used up. *)
  Lemma getNext_spec fuel : forall chain pos pg e,
    e_fin e = false -> e_src e = Tree chain pos -> chain_ok (cmpAt (e_att e)) chain -> refind_ok (cmpAt (e_att e)) chain (e_refind e) ->
    nth_error chain pos = Some pg -> at_off (e_list e) (e_off e) = None -> valid_row (e_cur e) ->
    Forall (fun y => cmpAt (e_att e) (e_cur e) y < 0) (rows_of (skipn (S pos) chain)) ->
    (length chain - pos < fuel)%nat ->
    let s := filter (fun y => cmpAt (e_att e) (e_cur e) y <? 0) (lf_items pg) ++ rows_of (skipn (S pos) chain) in
    let e' := entryGetNextItem fuel chain pos e in
    e_att e' = e_att e /\ e_refind e' = e_refind e /\
    match s with
    | [] => e_fin e' = true
    | x :: r => rep e' r /\ e_cur e' = x /\ moved e'
    end.
  Proof.
    induction fuel as [|f IH]; intros chain pos pg e Hf Hsrc Hch Href Hpg Hat Hv Hlt Hfuel; [lia|].
    cbn [ScanEntry.entryGetNextItem]. rewrite Hat, Hpg.
    pose proof (cmpAt_total (e_att e)) as OK.
    destruct (page_facts _ _ _ _ Hch Hpg) as (Ps & Pv & Pb).
    pose proof (scanPage_spec pg (is_last chain pos) e (e_cur e) false Ps Pb Hv) as SP. cbv zeta in SP.
    destruct (scanPage pg (is_last chain pos) e (e_cur e) false) as [e1 found].
    destruct SP as ((E1 & E2 & E3 & E4 & E5) & SP).
    assert (Bf : forall y, before (cmpAt (e_att e)) false (e_cur e) y = negb (cmpAt (e_att e) (e_cur e) y <? 0)).
    { intro y. unfold before. rewrite andb_true_r.
      destruct (Z.ltb_spec (cmpAt (e_att e) (e_cur e) y) 0) as [L|L].
      - apply (cmp_lt_gt _ OK) in L. destruct (Z.ltb_spec (cmpAt (e_att e) y (e_cur e)) 0); [lia|]. destruct (Z.leb_spec (cmpAt (e_att e) y (e_cur e)) 0); [lia|]. reflexivity.
      - apply (cmp_ge_le _ OK) in L. apply Z.leb_le in L. rewrite L. apply orb_true_r. }
    destruct found.
    - destruct SP as (pre & l1 & y & l2 & post & Hi & Fb & By & Hl & Ho & Hc).
      cbv zeta. split; [exact E1|]. split; [exact E5|].
      assert (Fil : filter (fun z => cmpAt (e_att e) (e_cur e) z <? 0) (lf_items pg) = y :: l2 ++ post).
      { rewrite Hi. replace (pre ++ (l1 ++ y :: l2) ++ post) with ((pre ++ l1) ++ y :: (l2 ++ post)) by (rewrite <- !app_assoc; reflexivity).
        rewrite filter_app. assert (N : filter (fun z => cmpAt (e_att e) (e_cur e) z <? 0) (pre ++ l1) = []).
        { clear -Fb Bf. induction (pre ++ l1) as [|a l IHl]; [reflexivity|]. apply Forall_cons_iff in Fb as [B F]. cbn [filter].
          rewrite Bf in B. apply negb_true_iff in B. rewrite B. apply IHl. exact F. }
        rewrite N. cbn [app filter]. rewrite Bf in By. apply negb_false_iff in By. rewrite By. f_equal.
        rewrite forallb_filter_id; [reflexivity|]. apply forallb_forall. intros z Hz. apply Z.ltb_lt in By. apply Z.ltb_lt.
        eapply (cmp_lt_trans _ OK); [exact By|].
        rewrite Hi in Ps. replace (pre ++ (l1 ++ y :: l2) ++ post) with ((pre ++ l1) ++ y :: (l2 ++ post)) in Ps by (rewrite <- !app_assoc; reflexivity).
        apply (ssorted_app (cmpAt (e_att e))) in Ps as (_ & Ps & _). apply (ssorted_inv (cmpAt (e_att e))) in Ps as [_ Ps].
        rewrite Forall_forall in Ps. apply Ps. exact Hz. }
      rewrite Fil. cbn [app]. split; [|split; [exact Hc|unfold moved; rewrite E2, Hsrc, Ho; lia]].
      unfold rep. rewrite E1, E2, E3, E5, Hsrc. split; [exact Hf|]. split; [exact Hch|]. split; [exact Href|].
      exists pg, pre, post. split; [exact Hpg|]. split; [rewrite Hl; exact Hi|]. split; [rewrite Hl; destruct l1; discriminate|]. split.
      + rewrite Hl, Ho, app_tail_inv, <- app_assoc. reflexivity.
      + right. exists l1, l2. rewrite Hl, Hc, Ho. split; reflexivity.
    - destruct SP as (Fb & Hc).
      assert (Fil : filter (fun z => cmpAt (e_att e) (e_cur e) z <? 0) (lf_items pg) = []).
      { clear -Fb Bf. induction (lf_items pg) as [|a l IHl]; [reflexivity|]. apply Forall_cons_iff in Fb as [B F]. cbn [filter].
        rewrite Bf in B. apply negb_true_iff in B. rewrite B. apply IHl. exact F. }
      rewrite Fil. cbn [app]. cbv zeta.
      destruct (is_last chain pos) eqn:IL.
      + apply is_last_iff in IL. rewrite skipn_all2 by lia. cbn [rows_of flat_map].
        split; [exact E1|]. split; [exact E5|]. reflexivity.
      + assert (Hlen : (S pos < length chain)%nat).
        { unfold is_last in IL. apply Nat.eqb_neq in IL. assert (pos < length chain)%nat by (apply nth_error_Some; rewrite Hpg; discriminate). lia. }
        destruct (nth_error chain (S pos)) as [pg'|] eqn:Hpg'; [|apply nth_error_None in Hpg'; lia].
        unfold valid_row in Hv. rewrite Hv.
        rewrite (rows_next _ _ _ Hpg') in Hlt |- *. apply Forall_app in Hlt as [Hlt1 Hlt2].
        rewrite border_none by exact Hlt1. change (-1 <? 0) with true. cbv iota.
        set (e2 := set_list (set_src e1 (Tree chain (S pos))) (lf_items pg') (-1)).
        assert (Q : e_att e2 = e_att e) by (unfold e2; cbn; exact E1).
        assert (Q2 : e_cur e2 = e_cur e) by (unfold e2; cbn; exact Hc).
        assert (Q3 : e_refind e2 = e_refind e) by (unfold e2; cbn; exact E5).
        specialize (IH chain (S pos) pg' e2).
        rewrite Q, Q2, Q3 in IH.
        specialize (IH ltac:(unfold e2; cbn; congruence) eq_refl Hch Href Hpg' eq_refl Hv Hlt2 ltac:(lia)).
        cbv zeta in IH.
        rewrite forallb_filter_id in IH by (apply forallb_forall; rewrite Forall_forall in Hlt1; intros z Hz; apply Z.ltb_lt; auto).
        exact IH.
  Qed.

  (** The first row when the first page is empty and the current item is junk. *)
  Lemma scanPage_empty pg rm e x eqOk : lf_items pg = [] ->
    exists e1, scanPage pg rm e x eqOk = (e1, false) /\ same e e1 /\ e_cur e1 = e_cur e.
  Proof.
    intro H. unfold ScanEntry.scanPage. destruct (_ && _); [exists e; split; [reflexivity|split; [|reflexivity]]; unfold same; auto|].
    rewrite H. cbn [updateItemIndexes scan_narrow length]. cbn. eexists. split; [reflexivity|]. split; [|reflexivity]. unfold same. cbn. auto.
  Qed.
  Lemma border_first (cmp : item -> item -> Z) cur y l i : cmp cur y > 0 -> border cmp cur (y :: l) i = i.
  Proof. intro H. cbn [border]. destruct (Z.ltb_spec 0 (cmp cur y)); [reflexivity|lia]. Qed.
  Lemma junk_first fuel : forall chain pos pg e,
    e_fin e = false -> e_src e = Tree chain pos -> chain_ok (cmpAt (e_att e)) chain -> refind_ok (cmpAt (e_att e)) chain (e_refind e) ->
    nth_error chain pos = Some pg -> lf_items pg = [] -> at_off (e_list e) (e_off e) = None -> valid_row (e_cur e) ->
    Forall (fun y => cmpAt (e_att e) (e_cur e) y <> 0) (rows_of (skipn (S pos) chain)) ->
    (length chain - pos < fuel)%nat ->
    let e' := entryGetNextItem fuel chain pos e in
    e_att e' = e_att e /\
    match rows_of (skipn (S pos) chain) with
    | [] => e_fin e' = true
    | x :: r => rep e' r /\ e_cur e' = x /\ moved e'
    end.
  Proof.
    induction fuel as [|f IH]; intros chain pos pg e Hf Hsrc Hch Href Hpg Hem Hat Hv Hne Hfuel; [lia|].
    cbn [ScanEntry.entryGetNextItem]. rewrite Hat, Hpg.
    pose proof (cmpAt_total (e_att e)) as OK.
    destruct (scanPage_empty pg (is_last chain pos) e (e_cur e) false Hem) as (e1 & -> & (E1 & E2 & E3 & E4 & E5) & Hc).
    destruct (is_last chain pos) eqn:IL.
    { apply is_last_iff in IL. rewrite skipn_all2 by lia. split; [exact E1|reflexivity]. }
    assert (Hlen : (S pos < length chain)%nat).
    { unfold is_last in IL. apply Nat.eqb_neq in IL. assert (pos < length chain)%nat by (apply nth_error_Some; rewrite Hpg; discriminate). lia. }
    destruct (nth_error chain (S pos)) as [pg'|] eqn:Hpg'; [|apply nth_error_None in Hpg'; lia].
    unfold valid_row in Hv. rewrite Hv. rewrite (rows_next _ _ _ Hpg') in Hne |- *.
    destruct (page_facts _ _ _ _ Hch Hpg') as (Ps & _ & _).
    assert (Ss : ssorted (cmpAt (e_att e)) (lf_items pg' ++ rows_of (skipn (S (S pos)) chain))).
    { pose proof (proj1 Hch) as S. rewrite (rows_split _ _ _ Hpg') in S. apply (ssorted_app (cmpAt (e_att e))) in S as (_ & S & _). exact S. }
    apply Forall_app in Hne as [Hn1 Hn2].
    set (e2 := set_list (set_src e1 (Tree chain (S pos))) (lf_items pg') (-1)).
    assert (Q : e_att e2 = e_att e) by (unfold e2; cbn; exact E1).
    assert (Q2 : e_cur e2 = e_cur e) by (unfold e2; cbn; exact Hc).
    assert (Q3 : e_refind e2 = e_refind e) by (unfold e2; cbn; exact E5).
    destruct (lf_items pg') as [|y l] eqn:El.
    - cbn [border app]. change (-1 <? 0) with true. cbv iota.
      specialize (IH chain (S pos) pg' e2). rewrite Q, Q2, Q3 in IH.
      apply IH; auto; try (unfold e2; cbn; congruence); lia.
    - destruct (Z.lt_trichotomy (cmpAt (e_att e) (e_cur e) y) 0) as [L|[L|L]].
      + assert (Hlt : Forall (fun z => cmpAt (e_att e) (e_cur e) z < 0) ((y :: l) ++ rows_of (skipn (S (S pos)) chain))).
        { cbn [app] in *. apply (ssorted_inv (cmpAt (e_att e))) in Ss as [_ Ss]. constructor; [exact L|].
          eapply Forall_impl; [|exact Ss]. cbv beta. intros z Hz. eapply (cmp_lt_trans _ OK); [exact L|exact Hz]. }
        apply Forall_app in Hlt as [Hlt1 Hlt2]. rewrite border_none by exact Hlt1. change (-1 <? 0) with true. cbv iota.
        pose proof (getNext_spec f chain (S pos) pg' e2) as G. rewrite Q, Q2, Q3, El in G.
        specialize (G ltac:(unfold e2; cbn; congruence) eq_refl Hch Href Hpg' eq_refl Hv Hlt2 ltac:(lia)). cbv zeta in G.
        rewrite forallb_filter_id in G by (apply forallb_forall; rewrite Forall_forall in Hlt1; intros z Hz; apply Z.ltb_lt; auto).
        split; [apply G|]. apply G.
      + exfalso. apply Forall_cons_iff in Hn1 as [H _]. congruence.
      + rewrite border_first by lia. change (0 <? 0) with false. cbn [app nth Z.to_nat]. split; [exact E1|].
        split; [|split; [reflexivity|unfold moved; cbn; lia]].
        unfold rep. cbn [e_fin e_src e_list e_off e_att e_cur e_refind set_cur set_list set_src]. rewrite E1, E3, E5.
        split; [exact Hf|]. split; [exact Hch|]. split; [exact Href|]. exists pg', [], []. rewrite El.
        split; [exact Hpg'|]. split; [rewrite app_nil_r; reflexivity|]. split; [discriminate|]. split; [reflexivity|].
        right. exists [], l. split; reflexivity.
  Qed.
  (** ... when it is a null item pointer. *)
  Lemma junk_null fuel chain pg rest e :
    e_fin e = false -> e_src e = Tree chain 0 -> chain_ok (cmpAt (e_att e)) chain -> refind_ok (cmpAt (e_att e)) chain (e_refind e) ->
    chain = pg :: rest -> lf_items pg = [] -> at_off (e_list e) (e_off e) = None -> ip_valid (ip (e_cur e)) = false ->
    (rest = [] \/ exists pg' rest', rest = pg' :: rest' /\ lf_items pg' <> []) ->
    let e' := entryGetNextItem (S fuel) chain 0 e in
    e_att e' = e_att e /\
    match rows_of chain with
    | [] => e_fin e' = true
    | x :: r => rep e' r /\ e_cur e' = x /\ moved e'
    end.
  Proof.
    intros Hf Hsrc Hch Href Ec Hem Hat Hv Hr. cbn [ScanEntry.entryGetNextItem]. rewrite Hat.
    assert (H0 : nth_error chain 0 = Some pg) by (rewrite Ec; reflexivity). rewrite H0.
    destruct (scanPage_empty pg (is_last chain 0) e (e_cur e) false Hem) as (e1 & -> & (E1 & E2 & E3 & E4 & E5) & Hc).
    destruct Hr as [Er | (pg' & rest' & Er & Hne)].
    - assert (IL : is_last chain 0 = true) by (rewrite Ec, Er; reflexivity). rewrite IL.
      rewrite Ec, Er. cbn [rows_of flat_map]. rewrite Hem. split; [exact E1|reflexivity].
    - assert (IL : is_last chain 0 = false) by (rewrite Ec, Er; reflexivity). rewrite IL.
      assert (H1 : nth_error chain 1 = Some pg') by (rewrite Ec, Er; reflexivity). rewrite H1, Hv.
      destruct (lf_items pg') as [|y l] eqn:El; [congruence|]. cbn [nth].
      assert (ER : rows_of chain = y :: l ++ rows_of (skipn 2 chain)).
      { rewrite Ec, Er. cbn [rows_of flat_map skipn]. rewrite Hem, El. reflexivity. }
      rewrite ER. split; [exact E1|]. split; [|split; [reflexivity|unfold moved; cbn; lia]].
      unfold rep. cbn [e_fin e_src e_list e_off e_att e_cur e_refind set_cur set_list set_src]. rewrite E1, E3, E5.
      split; [exact Hf|]. split; [exact Hch|]. split; [exact Href|]. exists pg', [], []. rewrite El.
      split; [exact H1|]. split; [rewrite app_nil_r; reflexivity|]. split; [discriminate|]. split; [reflexivity|].
      right. exists [], l. split; reflexivity.
  Qed.

  Lemma collect_loop_spec join rest : forall c,
    match collect_loop join rest c with
    | (None, c', r) => collapse join c rest = [] /\ c' = CMax
    | (Some y, c', r) => collapse join c rest = y :: match c' with CMax => [] | CMin => [] | CItem x => collapse join (Some x) r end /\ c' <> CMin
    end.
  Proof.
    induction rest as [|x r IH]; intro c; cbn [collect_loop collapse].
    - destruct c; split; auto; discriminate.
    - destruct c as [y|].
      + destruct (_ =? 0); [apply IH|]. split; [reflexivity|discriminate].
      + destruct x as [xi xa]. cbn [ip add]. apply IH.
  Qed.

  (** entryGetItem gives the next row, or finishes. *)
  Lemma entryGetItem_full e s : rep e s ->
    let e' := entryGetItem e in
    e_att e' = e_att e /\
    match s with
    | [] => e_fin e' = true
    | x :: r => rep e' r /\ e_cur e' = x /\ moved e'
    end.
  Proof.
    intros [Hf H]. cbv zeta. unfold ScanEntry.entryGetItem. destruct (e_src e) as [|chain pos|rest c] eqn:Hsrc.
    - destruct H as (Hs & Ho & ->).
      destruct (at_off (e_list e) (e_off e)) as [y|] eqn:At.
      + unfold at_off in At. destruct ((0 <=? e_off e) && _) eqn:B; [|discriminate].
        apply andb_true_iff in B as [_ B]. apply Z.ltb_lt in B.
        rewrite (firstn_skipn_nth item_min) by lia. apply (nth_error_nth _ _ item_min) in At. rewrite At.
        split; [reflexivity|]. split; [|split; [reflexivity|unfold moved; cbn [e_src e_off set_cur]; rewrite Hsrc; lia]]. unfold rep. cbn [e_fin e_src e_list e_off e_att set_cur]. rewrite Hsrc.
        split; [exact Hf|]. split; [exact Hs|]. split; [lia|]. f_equal. lia.
      + assert (L : Z.of_nat (length (e_list e)) <= e_off e).
        { unfold at_off in At. destruct ((0 <=? e_off e) && _) eqn:B.
          - apply andb_true_iff in B as [_ B]. apply Z.ltb_lt in B. apply nth_error_None in At. lia.
          - apply andb_false_iff in B as [B|B]; [apply Z.leb_gt in B; lia|apply Z.ltb_ge in B; lia]. }
        rewrite skipn_all2 by lia. split; reflexivity.
    - destruct H as (Hch & Href & pg & pre & post & Hpg & Hi & Hne & -> & Hst).
      destruct (page_facts _ _ _ _ Hch Hpg) as (Ps & Pv & Pb).
      destruct (at_off (e_list e) (e_off e)) as [y|] eqn:At.
      + replace (2 * (length chain - pos) + 2)%nat with (S (2 * (length chain - pos) + 1)) by lia.
        cbn [ScanEntry.entryGetNextItem]. rewrite At.
        unfold at_off in At. destruct ((0 <=? e_off e) && _) eqn:B; [|discriminate].
        apply andb_true_iff in B as [B0 B]. apply Z.ltb_lt in B. apply Z.leb_le in B0.
        rewrite (firstn_skipn_nth item_min) by lia. apply (nth_error_nth _ _ item_min) in At. rewrite At.
        split; [reflexivity|]. cbn [app]. split; [|split; [reflexivity|unfold moved; cbn [e_src e_off set_cur]; rewrite Hsrc; lia]]. unfold rep. cbn [e_fin e_src e_list e_off e_att e_cur e_refind set_cur]. rewrite Hsrc.
        split; [exact Hf|]. split; [exact Hch|]. split; [exact Href|]. exists pg, pre, post. repeat split; auto.
        * f_equal. f_equal. lia.
        * right. exists (firstn (Z.to_nat (e_off e)) (e_list e)), (skipn (S (Z.to_nat (e_off e))) (e_list e)). split.
          -- rewrite <- At. rewrite <- (firstn_skipn_nth item_min) by lia. rewrite firstn_skipn. reflexivity.
          -- rewrite firstn_length. lia.
      + destruct Hst as [[Ho Hp]|(l1 & l2 & Hl & Ho)].
        { exfalso. rewrite Ho in At. destruct (e_list e) as [|x l]; [congruence|]. discriminate. }
        assert (L2 : l2 = []).
        { destruct l2 as [|z l3]; [reflexivity|exfalso]. rewrite Hl, Ho in At.
          replace (l1 ++ e_cur e :: z :: l3) with ((l1 ++ [e_cur e]) ++ z :: l3) in At by (rewrite <- app_assoc; reflexivity).
          replace (Z.of_nat (length l1) + 1) with (Z.of_nat (length (l1 ++ [e_cur e]))) in At by (rewrite app_length; simpl; lia).
          rewrite at_off_in in At. discriminate. }
        subst l2.
        assert (Hin : In (e_cur e) (lf_items pg)).
        { rewrite Hi, Hl, !in_app_iff. right; left; right; left; reflexivity. }
        assert (Hvc : valid_row (e_cur e)) by (rewrite Forall_forall in Pv; auto).
        pose proof (cmpAt_total (e_att e)) as OK.
        pose proof (proj1 Hch) as Ss. rewrite (rows_split _ _ _ Hpg), Hi, Hl in Ss.
        apply (ssorted_app (cmpAt (e_att e))) in Ss as (_ & Ss & _). rewrite <- !app_assoc in Ss.
        apply (ssorted_app (cmpAt (e_att e))) in Ss as (_ & Ss & _). apply (ssorted_app (cmpAt (e_att e))) in Ss as (_ & Ss & _).
        cbn [app] in Ss. apply (ssorted_inv (cmpAt (e_att e))) in Ss as [Ss Fs].
        apply Forall_app in Fs as [Fs1 Fs2].
        pose proof (getNext_spec (2 * (length chain - pos) + 2) chain pos pg e Hf Hsrc Hch Href Hpg At Hvc Fs2 ltac:(lia)) as G.
        cbv zeta in G. destruct G as (G1 & G2 & G3). split; [exact G1|].
        assert (Fil : filter (fun y => cmpAt (e_att e) (e_cur e) y <? 0) (lf_items pg) = post).
        { rewrite Hi, Hl, !filter_app. cbn [filter].
          rewrite (tc_refl _ OK). change (0 <? 0) with false. cbv iota.
          assert (N : forall m, Forall (fun y => cmpAt (e_att e) y (e_cur e) < 0) m -> filter (fun y => cmpAt (e_att e) (e_cur e) y <? 0) m = []).
          { induction m as [|a m IHm]; intro F; [reflexivity|]. apply Forall_cons_iff in F as [F1 F2]. cbn [filter].
            apply (cmp_lt_gt _ OK) in F1. destruct (Z.ltb_spec (cmpAt (e_att e) (e_cur e) a) 0); [lia|]. auto. }
          rewrite Hi, Hl in Ps. rewrite <- app_assoc in Ps. rewrite app_assoc in Ps.
          apply (ssorted_app (cmpAt (e_att e))) in Ps as (_ & _ & Ps).
          rewrite (N pre), (N l1).
          - cbn [app]. rewrite forallb_filter_id; [reflexivity|]. apply forallb_forall. intros z Hz. apply Z.ltb_lt. rewrite Forall_forall in Fs1. auto.
          - apply Forall_forall. intros z Hz. apply Ps; [apply in_app_iff; right; exact Hz|left; reflexivity].
          - apply Forall_forall. intros z Hz. apply Ps; [apply in_app_iff; left; exact Hz|left; reflexivity]. }
        rewrite Fil in G3. rewrite Hl, Ho, app_tail_inv. cbn [app]. exact G3.
    - destruct H as (Hl & ->).
      pose proof (collect_loop_spec (joinFn (e_att e)) rest (match c with CItem x => Some x | _ => None end)) as CL.
      destruct c as [|x|].
      + destruct (collect_loop (joinFn (e_att e)) rest None) as [[[y|] c'] r].
        * destruct CL as [E NM]. split; [reflexivity|]. rewrite E. split; [|split; [reflexivity|exact I]].
          unfold rep. cbn. split; [exact Hf|]. split; [exact Hl|]. destruct c'; congruence.
        * destruct CL as [E ->]. rewrite E. split; reflexivity.
      + destruct (collect_loop (joinFn (e_att e)) rest (Some x)) as [[[y|] c'] r].
        * destruct CL as [E NM]. split; [reflexivity|]. rewrite E. split; [|split; [reflexivity|exact I]].
          unfold rep. cbn. split; [exact Hf|]. split; [exact Hl|]. destruct c'; congruence.
        * destruct CL as [E ->]. rewrite E. split; reflexivity.
      + split; reflexivity.
  Qed.

  Lemma entryGetItem_spec e s : rep e s ->
    let e' := entryGetItem e in
    e_att e' = e_att e /\
    match s with
    | [] => e_fin e' = true
    | x :: r => rep e' r /\ e_cur e' = x
    end.
  Proof.
    intro H. pose proof (entryGetItem_full e s H) as [G1 G2]. cbv zeta. split; [exact G1|]. destruct s; [exact G2|]. tauto.
  Qed.

  (** ** entryFindItem *)
  Lemma split_first {T} (f : T -> bool) : forall b s a y r, b ++ s = a ++ y :: r ->
    Forall (fun z => f z = true) b -> Forall (fun z => f z = true) a -> f y = false ->
    exists a', s = a' ++ y :: r /\ Forall (fun z => f z = true) a'.
  Proof.
    induction b as [|c b IH]; intros s a y r E Fb Fa Fy.
    - exists a. split; assumption.
    - apply Forall_cons_iff in Fb as [Fc Fb]. destruct a as [|d a]; cbn [app] in E; injection E as -> E.
      + congruence.
      + apply Forall_cons_iff in Fa as [_ Fa]. eapply IH; eauto.
  Qed.
  Lemma split_none {T} (f : T -> bool) (b s : list T) : Forall (fun z => f z = true) (b ++ s) -> Forall (fun z => f z = true) s.
  Proof. intro H. apply Forall_app in H. tauto. Qed.

  Lemma find_from_spec (cmp : item -> item -> Z) x : forall l o,
    match find_from cmp l x o with
    | None => Forall (fun y => cmp y x < 0) l
    | Some (y, o') => exists l1 l2, l = l1 ++ y :: l2 /\ Forall (fun y => cmp y x < 0) l1 /\ 0 <= cmp y x /\ o' = o + Z.of_nat (length l1)
    end.
  Proof.
    induction l as [|y r IH]; intro o; cbn [find_from]; [constructor|].
    destruct (Z.leb_spec 0 (cmp y x)) as [L|L].
    - exists [], r. repeat split; auto. simpl. lia.
    - specialize (IH (o + 1)). destruct (find_from cmp r x (o + 1)) as [[z o']|].
      + destruct IH as (l1 & l2 & -> & F & G & ->). exists (y :: l1), l2. repeat split; auto. simpl. lia.
      + constructor; assumption.
  Qed.

  Lemma before_true_iff (cmp : item -> item -> Z) x y : before cmp true x y = (cmp y x <? 0).
  Proof. unfold before. rewrite andb_false_r, orb_false_r. reflexivity. Qed.

  (** A page whose scan succeeded: the entry then stands in it. *)
  Lemma scanPage_rep chain p pg e x :
    let cmp := cmpAt (e_att e) in
    e_fin e = false -> chain_ok cmp chain -> refind_ok cmp chain (e_refind e) -> nth_error chain p = Some pg -> e_src e = Tree chain p ->
    ip_valid (ip x) = true ->
    let '(e', found) := scanPage pg (is_last chain p) e x true in
    same e e' /\
    if found then exists a y r, lf_items pg ++ rows_of (skipn (S p) chain) = a ++ y :: r /\
        Forall (fun z => (cmp z x <? 0) = true) a /\ (cmp y x <? 0) = false /\ rep e' r /\ e_cur e' = y /\ moved e'
    else Forall (fun z => (cmp z x <? 0) = true) (lf_items pg).
  Proof.
    intros cmp Hf Hch Href Hpg Hsrc Hv. destruct (page_facts _ _ _ _ Hch Hpg) as (Ps & Pv & Pb).
    pose proof (scanPage_spec pg (is_last chain p) e x true Ps Pb Hv) as SP. cbv zeta in SP. fold cmp in SP.
    destruct (scanPage pg (is_last chain p) e x true) as [e1 found].
    destruct SP as (Sm & SP). split; [exact Sm|]. destruct Sm as (E1 & E2 & E3 & E4 & E5).
    destruct found.
    - destruct SP as (pre & l1 & y & l2 & post & Hi & Fb & By & Hl & Ho & Hc).
      rewrite before_true_iff in By.
      exists (pre ++ l1), y, (l2 ++ post ++ rows_of (skipn (S p) chain)). repeat split; auto.
      + rewrite Hi, <- !app_assoc. reflexivity.
      + eapply Forall_impl; [|exact Fb]. intros z Hz. cbn beta in Hz. rewrite before_true_iff in Hz. exact Hz.
      + congruence.
      + rewrite E1, E2, E5, Hsrc. split; [exact Hch|]. split; [exact Href|]. exists pg, pre, post.
        rewrite Hl, Ho, Hc. repeat split; auto.
        * destruct l1; discriminate.
        * rewrite app_tail_inv. reflexivity.
        * right. exists l1, l2. split; reflexivity.
      + unfold moved. rewrite E2, Hsrc, Ho. lia.
    - destruct SP as [F _]. eapply Forall_impl; [|exact F]. intros z Hz. cbn beta in Hz. rewrite before_true_iff in Hz. exact Hz.
  Qed.

  (** The result of looking for the first row of [w] not below [x]. *)
  Definition found_in (cmp : item -> item -> Z) (x : item) (w : list item) (e' : entry) : Prop :=
    (e_fin e' = true /\ Forall (fun z => (cmp z x <? 0) = true) w) \/
    (exists a y r, w = a ++ y :: r /\ Forall (fun z => (cmp z x <? 0) = true) a /\ (cmp y x <? 0) = false /\ rep e' r /\ e_cur e' = y /\ moved e').

  Lemma find_right_spec fuel : forall chain p e x,
    let cmp := cmpAt (e_att e) in
    e_fin e = false -> chain_ok cmp chain -> refind_ok cmp chain (e_refind e) -> ip_valid (ip x) = true ->
    (length chain - p <= fuel)%nat -> (p < length chain)%nat ->
    let e' := find_right useAlt addTo cmpA fuel chain p e x in
    e_att e' = e_att e /\ found_in cmp x (rows_of (skipn (S p) chain)) e'.
  Proof.
    induction fuel as [|f IH]; intros chain p e x cmp Hf Hch Href Hv Hl Hp; [lia|]. cbn [find_right]. cbv zeta.
    destruct (nth_error chain (S p)) as [pg|] eqn:Hpg.
    - pose proof (scanPage_rep chain (S p) pg (set_src e (Tree chain (S p))) x Hf Hch Href Hpg eq_refl Hv) as SR.
      destruct (scanPage pg (is_last chain (S p)) (set_src e (Tree chain (S p))) x true) as [e1 found].
      destruct SR as ((E1 & E2 & E3 & E4 & E5) & SR). cbn in E1, E2, E3, E5.
      rewrite (rows_next _ _ _ Hpg).
      destruct found.
      + split; [exact E1|]. right. exact SR.
      + cbn in SR. fold cmp in SR.
        assert (LT : (S p < length chain)%nat) by (apply nth_error_Some; rewrite Hpg; discriminate).
        specialize (IH chain (S p) e1 x). rewrite E1, E5, E3 in IH. cbv zeta in IH.
        destruct (IH Hf Hch Href Hv ltac:(lia) LT) as [I1 I2]. split; [exact I1|].
        destruct I2 as [[I2 I3]|(a & y & r & I2 & I3 & I4 & I5)].
        * left. split; [exact I2|]. apply Forall_app. split; assumption.
        * right. exists (lf_items pg ++ a), y, r. fold cmp in I2, I3, I4. rewrite I2, <- app_assoc. split; [reflexivity|].
          split; [apply Forall_app; split; assumption|]. split; [exact I4|exact I5].
    - split; [reflexivity|]. left. split; [reflexivity|].
      apply nth_error_None in Hpg. rewrite skipn_all2 by lia. constructor.
  Qed.

  (** entryFindItem goes to the first row not below [x] - an entry that stands on a row below [x]. *)
  Lemma entryFindItem_spec e s x : rep e s -> (forall rest c, e_src e <> Coll rest c) ->
    cmpAt (e_att e) (e_cur e) x < 0 -> e_off e <> 0 ->
    ip_valid (ip x) = true ->
    let e' := entryFindItem e x in
    e_att e' = e_att e /\ found_in (cmpAt (e_att e)) x s e'.
  Proof.
    intros [Hf H] Hnc Hcur Hoff Hv. cbv zeta. unfold ScanEntry.entryFindItem. cbv zeta.
    set (cmp := cmpAt (e_att e)) in *. pose proof (cmpAt_total (e_att e) : total_cmp cmp) as OK.
    assert (NG : (0 <=? cmp (e_cur e) x) = false) by (apply Z.leb_gt; exact Hcur).
    rewrite NG. cbn [andb].
    destruct (e_src e) as [|chain pos|rest c] eqn:Hsrc; [| |exfalso; eapply Hnc; reflexivity].
    - destruct H as (Hs & Ho & ->).
      destruct (Nat.eqb_spec (length (e_list e)) 0) as [L0|L0].
      { split; [reflexivity|]. left. split; [reflexivity|]. destruct (e_list e); [|discriminate]. rewrite skipn_nil. constructor. }
      destruct (Z.leb_spec 0 (cmp (last (e_list e) item_min) x)) as [LL|LL].
      + apply Z.leb_le in Ho as Ho'. rewrite Ho'.
        pose proof (find_from_spec cmp x (skipn (Z.to_nat (e_off e)) (e_list e)) (e_off e)) as FF.
        destruct (find_from cmp _ x (e_off e)) as [[y o']|].
        * destruct FF as (l1 & l2 & E & F & G & ->). split; [reflexivity|]. right.
          exists l1, y, l2. split; [exact E|]. split; [eapply Forall_impl; [|exact F]; intros z Hz; apply Z.ltb_lt; exact Hz|].
          split; [apply Z.ltb_ge; exact G|]. split; [|split; [reflexivity|unfold moved; cbn [e_src e_off set_cur]; rewrite Hsrc; lia]].
          unfold rep. cbn [e_fin e_src e_list e_off e_att set_cur]. rewrite Hsrc. split; [exact Hf|]. split; [exact Hs|]. split; [lia|].
          replace (Z.to_nat (e_off e + Z.of_nat (length l1) + 1)) with (S (length l1) + Z.to_nat (e_off e))%nat by lia.
          rewrite <- skipn_skipn_, E.
          replace (S (length l1)) with (Z.to_nat (Z.of_nat (length l1) + 1)) by lia. rewrite app_tail_inv. reflexivity.
        * split; [reflexivity|]. left. split; [reflexivity|]. eapply Forall_impl; [|exact FF]. intros z Hz. apply Z.ltb_lt. exact Hz.
      + split; [reflexivity|]. left. split; [reflexivity|].
        assert (Fall : Forall (fun z => (cmp z x <? 0) = true) (e_list e)).
        { destruct (e_list e) as [|z0 l0] eqn:El using rev_ind; [constructor|]. clear IHl0.
          rewrite last_last in LL. apply Forall_app. split; [|constructor; [apply Z.ltb_lt; exact LL|constructor]].
          apply Forall_forall. intros z Hz. apply Z.ltb_lt. apply (ssorted_app cmp) in Hs as (_ & _ & Hs).
          eapply (cmp_lt_trans _ OK); [apply Hs; [exact Hz|left; reflexivity]|exact LL]. }
        rewrite <- (firstn_skipn (Z.to_nat (e_off e)) (e_list e)) in Fall. apply Forall_app in Fall. tauto.
    - destruct H as (Hch & Href & pg & pre & post & Hpg & Hi & Hne & -> & Hst).
      destruct Hst as [[Ho0 _]|(l1 & l2 & Hl & Ho)]; [congruence|].
      destruct (Nat.eqb_spec (length (e_list e)) 0) as [L0|L0]; [destruct (e_list e); [congruence|discriminate]|].
      (* everything up to the current row is below x *)
      assert (W : rows_of chain = (rows_of (firstn pos chain) ++ pre ++ l1 ++ [e_cur e]) ++ (l2 ++ post ++ rows_of (skipn (S pos) chain))).
      { rewrite (rows_split _ _ _ Hpg), Hi, Hl, <- !app_assoc. reflexivity. }
      assert (Bb : Forall (fun z => (cmp z x <? 0) = true) (rows_of (firstn pos chain) ++ pre ++ l1 ++ [e_cur e])).
      { pose proof (proj1 Hch) as Ss. rewrite W in Ss. apply (ssorted_app cmp) in Ss as (Ss & _). rewrite !app_assoc in Ss |- *.
        apply (ssorted_app cmp) in Ss as (_ & _ & Ss). apply Forall_app. split; [|constructor; [apply Z.ltb_lt; exact Hcur|constructor]].
        apply Forall_forall. intros z Hz. apply Z.ltb_lt. eapply (cmp_lt_trans _ OK); [apply Ss; [exact Hz|left; reflexivity]|exact Hcur]. }
      rewrite Hl, Ho, app_tail_inv.
      (* the search outside the loaded part *)
      assert (OUT : Forall (fun z => (cmp z x <? 0) = true) l2 ->
        let e' := (let '(e1, found) := scanPage pg (is_last chain pos) e x true in
                   if found then e1 else match nth_error chain (e_refind e x) with
                     | None => e1
                     | Some pg' => let '(e2, found') := scanPage pg' (is_last chain (e_refind e x)) (set_src e1 (Tree chain (e_refind e x))) x true in
                         if found' then e2 else find_right useAlt addTo cmpA (length chain) chain (e_refind e x) e2 x end) in
        e_att e' = e_att e /\ found_in cmp x (l2 ++ post ++ rows_of (skipn (S pos) chain)) e').
      { intro F2. pose proof (scanPage_rep chain pos pg e x Hf Hch Href Hpg Hsrc Hv) as SR.
        destruct (scanPage pg (is_last chain pos) e x true) as [e1 found].
        destruct SR as ((E1 & E2 & E3 & E4 & E5) & SR). fold cmp in SR.
        destruct found.
        - split; [exact E1|]. right. destruct SR as (a & y & r & E & Fa & Fy & Hr & Hc).
          assert (Q : (rows_of (firstn pos chain) ++ pre ++ l1 ++ [e_cur e]) ++ (l2 ++ post ++ rows_of (skipn (S pos) chain)) = (rows_of (firstn pos chain) ++ a) ++ y :: r).
          { rewrite <- W, (rows_split _ _ _ Hpg), E, <- app_assoc. reflexivity. }
          destruct (split_first (fun z => cmp z x <? 0) _ _ _ _ _ Q Bb) as (a' & Ha & Fa'); auto.
          { apply Forall_app. split; [|exact Fa]. apply Forall_app in Bb. tauto. }
          exists a', y, r. auto.
        - destruct (Href x) as [Rl Rf]. fold cmp in Rf.
          destruct (nth_error chain (e_refind e x)) as [pg'|] eqn:Hpg'; [|apply nth_error_None in Hpg'; lia].
          set (p := e_refind e x) in *.
          pose proof (scanPage_rep chain p pg' (set_src e1 (Tree chain p)) x) as SR'. cbn [e_att e_fin e_refind e_src set_src] in SR'.
          rewrite E1, E3, E5 in SR'. specialize (SR' Hf Hch Href Hpg' eq_refl Hv). fold cmp in SR'.
          destruct (scanPage pg' (is_last chain p) (set_src e1 (Tree chain p)) x true) as [e2 found'].
          destruct SR' as ((E1' & E2' & E3' & E4' & E5') & SR'). cbn in E1', E3', E5'.
          assert (Rf' : Forall (fun z => (cmp z x <? 0) = true) (rows_of (firstn p chain))).
          { eapply Forall_impl; [|exact Rf]. intros z Hz. apply Z.ltb_lt. exact Hz. }
          destruct found'.
          + split; [congruence|]. right. destruct SR' as (a & y & r & E & Fa & Fy & Hr & Hc).
            assert (Q : (rows_of (firstn pos chain) ++ pre ++ l1 ++ [e_cur e]) ++ (l2 ++ post ++ rows_of (skipn (S pos) chain)) = (rows_of (firstn p chain) ++ a) ++ y :: r).
            { rewrite <- W, (rows_split _ _ _ Hpg'), E, <- app_assoc. reflexivity. }
            destruct (split_first (fun z => cmp z x <? 0) _ _ _ _ _ Q Bb) as (a' & Ha & Fa'); auto.
            { apply Forall_app. split; assumption. }
            exists a', y, r. auto.
          + pose proof (find_right_spec (length chain) chain p e2 x) as FR. rewrite E1', E1, E3', E5', E3, E5 in FR. fold cmp in FR.
            destruct (FR Hf Hch Href Hv ltac:(lia) Rl) as [FR1 FR2]. split; [exact FR1|].
            destruct FR2 as [[FR2 FR3]|(a & y & r & E & Fa & Fy & Hr & Hc)].
            * left. split; [exact FR2|]. apply (split_none (fun z => cmp z x <? 0) (rows_of (firstn pos chain) ++ pre ++ l1 ++ [e_cur e])).
              rewrite <- W, (rows_split _ _ _ Hpg'). apply Forall_app. split; [exact Rf'|]. apply Forall_app. split; assumption.
            * right.
              assert (Q : (rows_of (firstn pos chain) ++ pre ++ l1 ++ [e_cur e]) ++ (l2 ++ post ++ rows_of (skipn (S pos) chain)) = (rows_of (firstn p chain) ++ lf_items pg' ++ a) ++ y :: r).
              { rewrite <- W, (rows_split _ _ _ Hpg'), E, <- !app_assoc. reflexivity. }
              destruct (split_first (fun z => cmp z x <? 0) _ _ _ _ _ Q Bb) as (a' & Ha & Fa'); auto.
              { apply Forall_app. split; [assumption|]. apply Forall_app. split; assumption. }
              exists a', y, r. auto. }
      destruct (Z.leb_spec 0 (cmp (last (l1 ++ e_cur e :: l2) item_min) x)) as [LL|LL].
      + destruct (Z.leb_spec 0 (Z.of_nat (length l1) + 1)) as [_|]; [|lia].
        
        pose proof (find_from_spec cmp x l2 (Z.of_nat (length l1) + 1)) as FF.
        destruct (find_from cmp l2 x _) as [[y o']|].
        * destruct FF as (m1 & m2 & -> & F & G & ->). split; [reflexivity|]. right.
          exists m1, y, (m2 ++ post ++ rows_of (skipn (S pos) chain)). split; [rewrite <- app_assoc; reflexivity|].
          split; [eapply Forall_impl; [|exact F]; intros z Hz; apply Z.ltb_lt; exact Hz|].
          split; [apply Z.ltb_ge; exact G|]. split; [|split; [reflexivity|unfold moved; cbn [e_src e_off set_cur]; rewrite Hsrc; lia]].
          unfold rep. cbn [e_fin e_src e_list e_off e_att e_cur e_refind set_cur]. rewrite Hsrc. split; [exact Hf|]. split; [exact Hch|]. split; [exact Href|].
          exists pg, pre, post. split; [exact Hpg|]. split; [exact Hi|]. split; [exact Hne|].
          rewrite Hl.
          replace (l1 ++ e_cur e :: m1 ++ y :: m2) with ((l1 ++ e_cur e :: m1) ++ y :: m2) by (rewrite <- app_assoc; reflexivity).
          replace (Z.of_nat (length l1) + 1 + Z.of_nat (length m1) + 1) with (Z.of_nat (length (l1 ++ e_cur e :: m1)) + 1) by (rewrite app_length; simpl; lia).
          rewrite app_tail_inv. split; [reflexivity|]. right. exists (l1 ++ e_cur e :: m1), m2. split; reflexivity.
        * rewrite Hpg. apply OUT. eapply Forall_impl; [|exact FF]. intros z Hz. apply Z.ltb_lt. exact Hz.
      + rewrite Hpg. apply OUT.
        assert (Ss : ssorted cmp (e_cur e :: l2)).
        { pose proof (proj1 Hch) as Ss. rewrite (rows_split _ _ _ Hpg), Hi, Hl in Ss.
          apply (ssorted_app cmp) in Ss as (_ & Ss & _). apply (ssorted_app cmp) in Ss as (Ss & _). apply (ssorted_app cmp) in Ss as (_ & Ss & _).
          apply (ssorted_app cmp) in Ss as (Ss & _). apply (ssorted_app cmp) in Ss as (_ & Ss & _). exact Ss. }
        destruct l2 as [|z0 l0] using rev_ind; [constructor|]. clear IHl0.
        replace (l1 ++ e_cur e :: l0 ++ [z0]) with ((l1 ++ e_cur e :: l0) ++ [z0]) in LL by (rewrite <- app_assoc; reflexivity).
        rewrite last_last in LL. apply Forall_app. split; [|constructor; [apply Z.ltb_lt; exact LL|constructor]].
        apply (ssorted_inv cmp) in Ss as [Ss _]. apply (ssorted_app cmp) in Ss as (_ & _ & Ss).
        apply Forall_forall. intros z Hz. apply Z.ltb_lt.
        eapply (cmp_lt_trans _ OK); [apply Ss; [exact Hz|left; reflexivity]|exact LL].
  Qed.
End EntryFacts.
