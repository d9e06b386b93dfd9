(** Proofs about the regular scan of an attach-ordered index with conditions on other columns: those
    are collected in a bitmap first. *)
From Verif Require Import Base Ord OrdProof LeafPage ScanEntry ScanEntryProof TidBitmap TidBitmapProof PropBitmap Scan ScanSpec ScanRegular.
From Coq Require Import NArith ZArith Bool Arith List Lia Permutation.
Import ListNotations.
Local Open Scope Z_scope.

Section Bitmap.
  Context {A : Type}.
  Variables (useAlt : bool) (addTo : N) (cmpA : A -> A -> Z).
  Hypothesis CA : total_cmp cmpA.
  Variable joinFn : joins A.
  Variables (visit : tbm -> list N) (iterate : list (N * pentry) -> list (N * pentry)) (tbmMax : N).
  Hypothesis IT : forall l, Permutation (iterate l) l.
  Notation item := (item A).
  Notation entry := (entry A).
  Notation skey := (skey A).
  Notation kst := (kst A).
  Notation cmpAt := (cmpAt useAlt addTo cmpA).
  Notation getItem := (entryGetItem useAlt addTo cmpA joinFn).
  Notation ent := (@ent A).
  Notation collected := (collected visit iterate).
  Notation pos_ok := (pos_ok useAlt addTo cmpA joinFn).
  Notation at_ok := (at_ok useAlt addTo cmpA joinFn).
  Notation started := (started useAlt addTo cmpA joinFn).

  (** Plain row order. *)
  Definition cmp0 : item -> item -> Z := compareRumItem false cmpA.
  Lemma cmp0_total : total_cmp cmp0. Proof. apply cri_total. exact CA. Qed.
  Lemma cmp0_eq x y : cmp0 x y = 0 <-> ip x = ip y.
  Proof. unfold cmp0, compareRumItem. apply cip_eq. Qed.
  Lemma cmp0_min (x : item) : ip_valid (ip x) = true -> cmp0 item_min x < 0.
  Proof.
    unfold ip_valid. intro V. unfold cmp0, compareRumItem, item_min. cbn [ip]. apply cip_lt. destruct (ip x) as [b o]. cbn [blk off ip_min] in *.
    apply negb_true_iff, N.eqb_neq in V. lia.
  Qed.
  Lemma cmp0_ext (x x' y : item) : ip x = ip x' -> cmp0 x y = cmp0 x' y.
  Proof. unfold cmp0, compareRumItem. intros ->. reflexivity. Qed.
  Lemma cmp0_ext_r (x y y' : item) : ip y = ip y' -> cmp0 x y = cmp0 x y'.
  Proof. unfold cmp0, compareRumItem. intros ->. reflexivity. Qed.

  Variable Cs : list (list item).
  Variable atts : list N.
  Notation C_ n := (nth n Cs []).

  Section OneKey.
    Variable k : skey.
    Definition usedk (n : nat) : bool := existsb (Nat.eqb n) (sk_ents k).
    Lemma usedk_in n : usedk n = true <-> In n (sk_ents k).
    Proof.
      unfold usedk. rewrite existsb_exists. split; [intros (m & H & E); apply Nat.eqb_eq in E; subst; exact H|].
      intro H. exists n. split; [exact H|apply Nat.eqb_refl].
    Qed.
    Hypothesis ND : NoDup (sk_ents k).
    Hypothesis UL : forall n, usedk n = true -> (n < length Cs)%nat.
    Hypothesis HC : forall n, usedk n = true -> cmpAt (nth n atts 0%N) = cmp0.
    Hypothesis HS : forall n, usedk n = true -> ssorted cmp0 (C_ n).
    Hypothesis HR : forall n y, usedk n = true -> In y (C_ n) -> ip_valid (ip y) = true.
    Hypothesis HO : forall n y, usedk n = true -> In y (C_ n) -> (off (ip y) <= MAX_TUPLES_PER_PAGE)%N.
    Let HA : forall n m y y', usedk n = true -> usedk m = true -> In y (C_ n) -> In y' (C_ m) -> ip y = ip y' -> cmp0 y y' = 0.
    Proof. intros n m y y' _ _ _ _ E. apply cmp0_eq. exact E. Qed.
    Notation Est := (Est Cs atts).

    Lemma fold_update (g : entry -> entry) : forall ns ents, NoDup ns -> (forall n, In n ns -> (n < length ents)%nat) ->
      let ents' := fold_left (fun es n => update es n g) ns ents in
      length ents' = length ents /\ (forall n, In n ns -> ent ents' n = g (ent ents n)) /\ (forall n, ~ In n ns -> ent ents' n = ent ents n).
    Proof.
      induction ns as [|m ns IH]; intros ents N L; cbn [fold_left].
      - split; [reflexivity|]. split; [intros n []|reflexivity].
      - inversion N as [|? ? N1 N2]; subst.
        destruct (IH (update ents m g) N2) as (I1 & I2 & I3); [intros n Hn; rewrite update_length; apply L; right; exact Hn|].
        rewrite update_length in I1. split; [exact I1|].
        assert (LM : (m <? length ents)%nat = true) by (apply Nat.ltb_lt, L; left; reflexivity). split.
        + intros n [->|Hn].
          * rewrite I3 by exact N1. rewrite ent_update, Nat.eqb_refl, LM. reflexivity.
          * rewrite I2 by exact Hn. rewrite ent_update. destruct (Nat.eqb_spec n m) as [->|]; [contradiction|]. reflexivity.
        + intros n Hn. rewrite I3 by (intro H; apply Hn; right; exact H). rewrite ent_update.
          destruct (Nat.eqb_spec n m) as [->|]; [exfalso; apply Hn; left; reflexivity|]. reflexivity.
    Qed.

    Definition past_item (past : option iptr) : item := match past with None => item_min | Some p => mkItem p None end.
    Definition st_ok (past : option iptr) : entry -> list item -> Prop :=
      match past with None => started | Some p => at_ok cmp0 (mkItem p None) end.
    (** A row the key answers true on, after [p]. *)
    Definition hit (p : item) (x : iptr) : Prop := matches addTo Cs k x /\ cmp0 p (mkItem x None) < 0.

    Lemma step_ok past ents : (match past with None => True | Some p => ip_valid p = true end) ->
      Est usedk (st_ok past) ents ->
      let adv e := match past with
                   | None => if e_fin e then e else getItem e
                   | Some p => advance_loop useAlt addTo cmpA joinFn (fun a b => rumCompareItemPointers (ip a) (ip b)) (e_bound e) (mkItem p None) e
                   end in
      let ents1 := fold_left (fun es n => update es n adv) (sk_ents k) ents in
      Est usedk (pos_ok cmp0 (past_item past)) ents1 /\ (forall n, ~ In n (sk_ents k) -> ent ents1 n = ent ents n).
    Proof.
      intros HV HE. pose proof HE as (E1 & E2 & E3). cbv zeta.
      set (adv := fun e : entry => _).
      destruct (fold_update adv (sk_ents k) ents ND) as (F1 & F2 & F3).
      { intros n Hn. rewrite E1. apply UL, usedk_in, Hn. }
      set (ents1 := fold_left _ _ _) in *.
      assert (AT : forall e, e_att (adv e) = e_att e).
      { intro e. unfold adv. destruct past as [p|].
        - generalize (e_bound e) as f. intro f. revert e. induction f as [|f IH]; intro e; cbn [advance_loop]; [reflexivity|].
          destruct (_ && _); [rewrite IH; apply getItem_att|reflexivity].
        - destruct (e_fin e); [reflexivity|apply getItem_att]. }
      split; [|exact F3]. split; [rewrite F1; exact E1|]. split.
      - intros n L. destruct (in_dec Nat.eq_dec n (sk_ents k)) as [I|I]; [rewrite F2 by exact I; rewrite AT|rewrite F3 by exact I]; apply E2; exact L.
      - intros n U. assert (I : In n (sk_ents k)) by (apply usedk_in; exact U). rewrite F2 by exact I. specialize (E3 n U).
        unfold adv, past_item. destruct past as [p|]; cbn [st_ok] in E3.
        + apply (advance_loop_pos useAlt addTo cmpA CA joinFn cmp0 cmp0_total (mkItem p None) (ent ents n) (C_ n) (e_bound (ent ents n))); [|exact E3|lia].
          rewrite E2 by (apply UL; exact U). apply HC, U.
        + apply start_pos_ok; [exact E3|]. apply Forall_forall. intros y Hy. apply cmp0_min. apply (HR n y U Hy).
    Qed.

    Lemma collect_spec : forall fuel ents ks past t inter S0,
      (match past with None => True | Some p => ip_valid p = true end) ->
      Est usedk (st_ok past) ents -> ks_fin ks = false -> ks_ok addTo Cs k ks ->
      collected inter t S0 -> (measure cmp0 Cs usedk (past_item past) < fuel)%nat ->
      let '(ents', ks', t') := collect_bitmap useAlt addTo cmpA joinFn visit fuel ents k ks past t in
      (exists S', collected inter t' S' /\ forall x, S' x <-> S0 x \/ hit (past_item past) x) /\
      length ents' = length ents /\ (forall n, (n < length Cs)%nat -> e_att (ent ents' n) = nth n atts 0%N) /\
      (forall n, ~ In n (sk_ents k) -> ent ents' n = ent ents n).
    Proof.
      induction fuel as [|f IH]; intros ents ks past t inter S0 HV HE Hf Hk Hcol Hm; [lia|].
      cbn [collect_bitmap].
      destruct (step_ok past ents HV HE) as [HP HN]. cbv zeta in HP, HN.
      set (ents1 := fold_left _ (sk_ents k) ents) in *.
      pose proof (keyGetItem_spec useAlt addTo cmpA joinFn cmp0 cmp0_total (fun x y => proj1 (cmp0_eq x y)) cmp0_min Cs atts usedk UL HC HR HS HA
        (past_item past) ents1 k ks HP (fun n H => proj2 (usedk_in n) H) Hf Hk) as G. cbv zeta in G.
      set (ks1 := keyGetItem useAlt addTo cmpA ents1 k ks) in *.
      assert (HL : length ents1 = length ents) by (rewrite (proj1 HP), (proj1 HE); reflexivity).
      destruct (ks_fin ks1) eqn:F1.
      - split; [|split; [exact HL|split; [apply HP|exact HN]]].
        exists S0. split; [exact Hcol|]. intro x. split; [left; assumption|]. intros [H|[[(n & y & Y1 & Y2 & Y3) _] L]]; [exact H|].
        exfalso. specialize (G n y Y1 Y2). rewrite <- (cmp0_ext_r (past_item past) y (mkItem x None) Y3) in L.
        apply (cmp_lt_gt cmp0 cmp0_total) in L. lia.
      - destruct G as (_ & G2 & G3 & G4 & G5). destruct (G2 G3) as ((n0 & N1 & N2) & N3 & _).
        set (x1 := ks_cur ks1) in *.
        assert (RX : is_row Cs usedk x1) by (exists n0; split; [apply usedk_in; exact N1|exact N2]).
        assert (HOFF : (off (ip x1) <= MAX_TUPLES_PER_PAGE)%N) by (apply (HO n0); [apply usedk_in; exact N1|exact N2]).
        assert (MM : ks_match ks1 = true <-> matches addTo Cs k (ip x1)).
        { split.
          - intro E. split; [exists n0, x1; auto|]. apply says_iff. change (fst (says_b addTo Cs k (ip x1)) = true). rewrite <- N3. exact E.
          - intros [_ S]. apply says_iff in S. change (fst (says_b addTo Cs k (ip x1)) = true) in S. rewrite <- N3 in S. exact S. }
        assert (MS : (measure cmp0 Cs usedk (mkItem (ip x1) None) < measure cmp0 Cs usedk (past_item past))%nat).
        { replace (measure cmp0 Cs usedk (mkItem (ip x1) None)) with (measure cmp0 Cs usedk x1) by reflexivity.
          apply (measure_strict useAlt addTo cmpA cmp0 cmp0_total (fun x y => proj1 (cmp0_eq x y)) cmp0_min Cs atts usedk UL HC HR HS HA); [exact RX|exact G4]. }
        set (t1 := if ks_match ks1 then _ else t).
        assert (T1 : exists S1, collected inter t1 S1 /\ forall x, S1 x <-> S0 x \/ (x = ip x1 /\ matches addTo Cs k (ip x1))).
        { unfold t1. destruct (ks_match ks1) eqn:KM.
          - destruct (tbm_add_tuple visit t (ip x1) false) as [t'|] eqn:AD.
            + exists (fun x => S0 x \/ x = ip x1). split; [apply (col_add _ _ _ _ _ _ _ Hcol AD)|]. intro x. split.
              * intros [H|H]; [left; exact H|right]. split; [exact H|apply MM; reflexivity].
              * intros [H|[H _]]; [left; exact H|right; exact H].
            + exfalso. unfold tbm_add_tuple in AD.
              assert (V := G3). unfold ip_valid in V. fold x1 in V. apply negb_true_iff, N.eqb_neq in V.
              destruct ((off (ip x1) <? 1)%N || (MAX_TUPLES_PER_PAGE <? off (ip x1))%N) eqn:OR; [|destruct (tbm_page_is_lossy t (blk (ip x1))); [discriminate|destruct (tbm_get_pageentry t (blk (ip x1))); discriminate]].
              apply orb_true_iff in OR as [OR|OR]; [apply N.ltb_lt in OR; lia|apply N.ltb_lt in OR; lia].
          - exists S0. split; [exact Hcol|]. intro x. split; [left; assumption|]. intros [H|[_ H]]; [exact H|]. apply MM in H. discriminate. }
        destruct T1 as (S1 & T1 & T2).
        assert (HE1 : Est usedk (st_ok (Some (ip x1))) ents1).
        { cbn [st_ok]. eapply Est_impl; [|exact HP]. intros e C [P _].
          apply (at_ok_mono useAlt addTo cmpA joinFn cmp0 cmp0_total (past_item past)); [|exact P].
          rewrite (cmp0_ext_r _ (mkItem (ip x1) None) x1) by reflexivity. lia. }
        specialize (IH ents1 ks1 (Some (ip x1)) t1 inter S1 G3 HE1 F1 G2 T1). cbn [past_item] in IH. specialize (IH ltac:(lia)).
        destruct (collect_bitmap _ _ _ _ _ f ents1 k ks1 (Some (ip x1)) t1) as [[ents' ks'] t'].
        destruct IH as ((S' & I1 & I2) & I3 & I4 & I5).
        split; [|split; [congruence|split; [exact I4|intros n Hn; rewrite I5 by exact Hn; apply HN; exact Hn]]].
        exists S'. split; [exact I1|]. intro x. rewrite I2, T2. split.
        + intros [[H|[-> H]]|[H1 H2]]; [left; exact H|right; split; [exact H|exact G4]|].
          right. split; [exact H1|]. apply (cmp_lt_trans cmp0 cmp0_total _ x1); [exact G4|]. rewrite (cmp0_ext x1 (mkItem (ip x1) None)) by reflexivity. exact H2.
        + intros [H|[H1 H2]]; [left; left; exact H|]. pose proof H1 as [(n & y & Y1 & Y2 & Y3) _].
          assert (LE : cmp0 x1 (mkItem x None) <= 0).
          { rewrite <- (cmp0_ext_r x1 y (mkItem x None) Y3). apply (G5 n y Y1 Y2). rewrite (cmp0_ext_r _ y (mkItem x None) Y3). exact H2. }
          destruct (Z.eq_dec (cmp0 x1 (mkItem x None)) 0) as [E|E].
          * apply cmp0_eq in E. cbn [ip] in E. left. right. split; [congruence|]. rewrite E. exact H1.
          * right. split; [exact H1|]. rewrite (cmp0_ext (mkItem (ip x1) None) x1) by reflexivity. lia.
    Qed.
  End OneKey.

  (** ** All the conditions on other columns *)
  Definition usual (k : skey) : bool := negb (sk_order k || (addTo =? sk_att k)%N).
  Definition usual_ok (k : skey) : Prop :=
    (forall n, In n (sk_ents k) -> (n < length Cs)%nat /\ cmpAt (nth n atts 0%N) = cmp0 /\ ssorted cmp0 (C_ n) /\
       forall y, In y (C_ n) -> ip_valid (ip y) = true /\ (off (ip y) <= MAX_TUPLES_PER_PAGE)%N).
  Lemma hit_min (k : skey) x : usual_ok k -> (hit k item_min x <-> matches addTo Cs k x).
  Proof.
    intro U. unfold hit. split; [intros [H _]; exact H|]. intro H. split; [exact H|]. pose proof H as [(n & y & Y1 & Y2 & Y3) _].
    destruct (U n Y1) as (_ & _ & _ & V). destruct (V y Y2) as [V1 _]. apply cmp0_min. cbn [ip]. rewrite <- Y3. exact V1.
  Qed.
  Definition prep_inv (keys : list (skey * kst)) (ents : list entry) : Prop :=
    length ents = length Cs /\ (forall n, (n < length Cs)%nat -> e_att (ent ents n) = nth n atts 0%N) /\
    NoDup (flat_map (fun kk => sk_ents (fst kk)) keys) /\
    forall k ks, In (k, ks) keys -> usual k = true -> usual_ok k /\ ks = startScanKey /\ forall n, In n (sk_ents k) -> started (ent ents n) (C_ n).

  Lemma one_collect k ents inter : prep_inv [(k, startScanKey)] ents -> usual k = true ->
    let '(ents', ks', t') := collect_bitmap useAlt addTo cmpA joinFn visit (S (total_bound ents)) ents k startScanKey None (tbm_create tbmMax) in
    (exists S', collected inter t' S' /\ forall x, S' x <-> matches addTo Cs k x) /\
    length ents' = length Cs /\ (forall n, (n < length Cs)%nat -> e_att (ent ents' n) = nth n atts 0%N) /\
    (forall n, ~ In n (sk_ents k) -> ent ents' n = ent ents n).
  Proof.
    intros (E1 & E2 & E3 & E4) U. destruct (E4 k startScanKey (or_introl eq_refl) U) as (UO & _ & ST).
    cbn [flat_map fst] in E3. rewrite app_nil_r in E3.
    assert (UI : forall n, usedk k n = true -> In n (sk_ents k)) by (intros n H; apply usedk_in; exact H).
    assert (HE : Est Cs atts (usedk k) (st_ok None) ents).
    { split; [exact E1|]. split; [exact E2|]. intros n H. apply ST, UI, H. }
    assert (MB : (measure cmp0 Cs (usedk k) item_min <= total_bound ents)%nat).
    { apply (measure_bound useAlt addTo cmpA joinFn cmp0 (fun x y => proj1 (cmp0_eq x y)) cmp0_min Cs atts (usedk k)) with (past := mkItem ip_invalid None).
      - intros n H. apply UO, UI, H.
      - intros n H. apply UO, UI, H.
      - intros n y H Hy. apply (UO n (UI n H)), Hy.
      - intros n H. apply UO, UI, H.
      - intros n m y y' _ _ _ _ E. apply cmp0_eq. exact E.
      - exact HE. }
    pose proof (collect_spec k E3 (fun n H => proj1 (UO n (UI n H))) (fun n H => proj1 (proj2 (UO n (UI n H))))
      (fun n H => proj1 (proj2 (proj2 (UO n (UI n H))))) (fun n y H Hy => proj1 (proj2 (proj2 (proj2 (UO n (UI n H)))) y Hy))
      (fun n y H Hy => proj2 (proj2 (proj2 (proj2 (UO n (UI n H)))) y Hy))
      (S (total_bound ents)) ents startScanKey None (tbm_create tbmMax) inter (fun _ => False) I HE eq_refl) as CS.
    specialize (CS ltac:(intro V; discriminate) (col_empty _ _ _ _)). cbn [past_item] in CS. specialize (CS ltac:(lia)).
    destruct (collect_bitmap _ _ _ _ _ _ ents k startScanKey None (tbm_create tbmMax)) as [[ents' ks'] t'].
    destruct CS as ((S' & C1 & C2) & C3 & C4 & C5). split; [|split; [congruence|split; assumption]].
    exists S'. split; [exact C1|]. intro x. rewrite C2, hit_min by exact UO. tauto.
  Qed.

  Lemma NoDup_app_l {T} (l1 l2 : list T) : NoDup (l1 ++ l2) -> NoDup l1.
  Proof. induction l1 as [|x l IH]; intro H; [constructor|]. cbn in H. inversion H; subst. constructor; [intro I; apply H2, in_or_app; left; exact I|apply IH; assumption]. Qed.
  Lemma NoDup_app_r {T} (l1 l2 : list T) : NoDup (l1 ++ l2) -> NoDup l2.
  Proof. induction l1 as [|x l IH]; intro H; [exact H|]. cbn in H. inversion H; subst. apply IH. assumption. Qed.
  Lemma NoDup_app_disj {T} (l1 l2 : list T) x : NoDup (l1 ++ l2) -> In x l1 -> ~ In x l2.
  Proof.
    induction l1 as [|y l IH]; intros H I; [destruct I|]. cbn in H. inversion H; subst. destruct I as [->|I].
    - intro J. apply H2, in_or_app. right. exact J.
    - apply IH; assumption.
  Qed.
  Lemma prepare_spec : forall keys ents t isset inter S0, prep_inv keys ents -> collected inter t S0 ->
    (isset = false -> forall x, ~ S0 x) ->
    (inter = true \/ isset = false /\ (length (filter (fun kk => usual (fst kk)) keys) <= 1)%nat) ->
    let '(ents', keys', t') := prepare_bitmap useAlt addTo cmpA joinFn visit iterate tbmMax ents keys t isset in
    (exists S', collected inter t' S' /\
       forall x, S' x <-> (if isset then S0 x else exists kk, In kk keys /\ usual (fst kk) = true) /\
                          forall kk, In kk keys -> usual (fst kk) = true -> matches addTo Cs (fst kk) x) /\
    length ents' = length Cs /\ (forall n, (n < length Cs)%nat -> e_att (ent ents' n) = nth n atts 0%N) /\
    (forall n, (forall kk, In kk keys -> usual (fst kk) = true -> ~ In n (sk_ents (fst kk))) -> ent ents' n = ent ents n) /\
    map fst keys' = map fst keys /\ (forall k ks, In (k, ks) keys' -> usual k = false -> In (k, ks) keys).
  Proof.
    induction keys as [|[k ks] r IH]; intros ents t isset inter S0 PI HC HI HX; cbn [prepare_bitmap].
    - destruct PI as (E1 & E2 & _). split; [|split; [exact E1|split; [exact E2|split; [reflexivity|split; [reflexivity|auto]]]]].
      exists S0. split; [exact HC|]. intro x. destruct isset.
      + split; [intro H; split; [exact H|intros kk []]|intros [H _]; exact H].
      + split; [intro H; exfalso; apply (HI eq_refl x H)|intros [(kk & [] & _) _]].
    - pose proof PI as (E1 & E2 & E3 & E4). cbn [flat_map fst] in E3.
      destruct (sk_order k || (addTo =? sk_att k)%N) eqn:UU.
      + assert (UF : usual k = false) by (unfold usual; rewrite UU; reflexivity).
        assert (PR : prep_inv r ents).
        { split; [exact E1|]. split; [exact E2|]. split; [apply NoDup_app_r in E3; exact E3|]. intros k' ks' H. apply E4. right. exact H. }
        cbn [filter fst] in HX. rewrite UF in HX. specialize (IH ents t isset inter S0 PR HC HI HX).
        destruct (prepare_bitmap _ _ _ _ _ _ _ ents r t isset) as [[ents' r'] t'].
        destruct IH as ((S' & I1 & I2) & I3 & I4 & I5 & I6 & I7).
        split; [|split; [exact I3|split; [exact I4|split; [|split; [cbn [map fst]; congruence|]]]]].
        * exists S'. split; [exact I1|]. intro x. rewrite I2. split; intros [H1 H2]; (split; [destruct isset; [exact H1|]|]).
          -- destruct H1 as (kk & K1 & K2). exists kk. split; [right; exact K1|exact K2].
          -- intros kk [<-|H] U; [cbn [fst] in U; congruence|apply H2; assumption].
          -- destruct H1 as (kk & [<-|K1] & K2); [cbn [fst] in K2; congruence|]. exists kk. split; assumption.
          -- intros kk H U. apply H2; [right; exact H|exact U].
        * intros n H. apply I5. intros kk K U. apply H; [right; exact K|exact U].
        * intros k' ks' [E|H] U; [injection E as <- <-; left; reflexivity|right; apply I7; assumption].
      + assert (UT : usual k = true) by (unfold usual; rewrite UU; reflexivity).
        destruct (E4 k ks (or_introl eq_refl) UT) as (UO & -> & ST).
        assert (P1 : prep_inv [(k, startScanKey)] ents).
        { split; [exact E1|]. split; [exact E2|]. split; [cbn [flat_map fst]; rewrite app_nil_r; apply NoDup_app_l in E3; exact E3|].
          intros k' ks' [E|[]]. injection E as <- <-. intros _. auto. }
        pose proof (one_collect k ents inter P1 UT) as OC.
        destruct (collect_bitmap _ _ _ _ _ _ ents k startScanKey None (tbm_create tbmMax)) as [[ents1 ks1] cur].
        destruct OC as ((Sk & O1 & O2) & O3 & O4 & O5).
        set (t1 := if isset then tbm_intersect t cur else tbm_union visit iterate t cur).
        assert (T1 : exists S1, collected inter t1 S1 /\ forall x, S1 x <-> (if isset then S0 x else True) /\ matches addTo Cs k x).
        { unfold t1. destruct isset.
          - exists (fun x => S0 x /\ Sk x). split.
            + apply col_inter; [destruct HX as [HX|[HX _]]; [exact HX|discriminate]|exact HC|exact O1].
            + intro x. rewrite O2. tauto.
          - exists (fun x => S0 x \/ Sk x). split; [apply col_union; assumption|]. intro x. rewrite O2. specialize (HI eq_refl x). tauto. }
        destruct T1 as (S1 & T1 & T2).
        assert (PR : prep_inv r ents1).
        { split; [exact O3|]. split; [exact O4|]. split; [apply NoDup_app_r in E3; exact E3|]. intros k' ks' H U.
          destruct (E4 k' ks' (or_intror H) U) as (U1 & U2 & U3). split; [exact U1|]. split; [exact U2|]. intros n Hn.
          rewrite O5; [apply U3; exact Hn|]. intro J. apply (NoDup_app_disj _ _ n E3 J). apply in_flat_map. exists (k', ks'). split; [exact H|exact Hn]. }
        cbn [filter fst] in HX. rewrite UT in HX. cbn [length] in HX.
        assert (NU : inter = false -> forall kk, In kk r -> usual (fst kk) = true -> False).
        { intros E kk K U. destruct HX as [HX|[_ HX]]; [congruence|].
          assert (F : In kk (filter (fun kk : skey * kst => usual (fst kk)) r)) by (apply filter_In; split; assumption).
          destruct (filter (fun kk : skey * kst => usual (fst kk)) r); [destruct F|cbn [length] in HX; lia]. }
        destruct inter.
        * specialize (IH ents1 t1 true true S1 PR T1 ltac:(discriminate) (or_introl eq_refl)).
          destruct (prepare_bitmap _ _ _ _ _ _ _ ents1 r t1 true) as [[ents' r'] t'].
          destruct IH as ((S' & I1 & I2) & I3 & I4 & I5 & I6 & I7).
          split; [|split; [exact I3|split; [exact I4|split; [|split; [cbn [map fst]; congruence|]]]]].
          -- exists S'. split; [exact I1|]. intro x. rewrite I2, T2. split.
             ++ intros [[H1 H2] H3]. split; [destruct isset; [exact H1|exists (k, startScanKey); split; [left; reflexivity|exact UT]]|].
                intros kk [<-|H] U; [exact H2|apply H3; assumption].
             ++ intros [H1 H2]. split; [split; [destruct isset; [exact H1|exact I]|apply (H2 (k, startScanKey)); [left; reflexivity|exact UT]]|].
                intros kk H U. apply H2; [right; exact H|exact U].
          -- intros n H. rewrite I5; [apply O5; apply (H (k, startScanKey)); [left; reflexivity|exact UT]|]. intros kk K U. apply H; [right; exact K|exact U].
          -- intros k' ks' [E|H] U; [injection E as <- <-; congruence|right; apply I7; assumption].
        * assert (TR : prepare_bitmap useAlt addTo cmpA joinFn visit iterate tbmMax ents1 r t1 true = (ents1, r, t1)).
          { clear - NU. specialize (NU eq_refl). induction r as [|[k' ks'] r IHr]; [reflexivity|]. cbn [prepare_bitmap].
            destruct (sk_order k' || (addTo =? sk_att k')%N) eqn:E.
            - rewrite IHr; [reflexivity|]. intros kk K U. apply (NU kk); [right; exact K|exact U].
            - exfalso. apply (NU (k', ks')); [left; reflexivity|]. unfold usual. cbn [fst]. rewrite E. reflexivity. }
          rewrite TR.
          split; [|split; [exact O3|split; [exact O4|split; [|split; [reflexivity|]]]]].
          -- exists S1. split; [exact T1|]. intro x. rewrite T2. split.
             ++ intros [H1 H2]. split; [destruct isset; [exact H1|exists (k, startScanKey); split; [left; reflexivity|exact UT]]|].
                intros kk [<-|H] U; [exact H2|exfalso; apply (NU eq_refl kk H U)].
             ++ intros [H1 H2]. split; [destruct isset; [exact H1|exact I]|apply (H2 (k, startScanKey)); [left; reflexivity|exact UT]].
          -- intros n H. apply O5. apply (H (k, startScanKey)); [left; reflexivity|exact UT].
          -- intros k' ks' [E|H] U; [injection E as <- <-; congruence|right; exact H].
  Qed.
End Bitmap.

Section Alt.
  Context {A : Type}.
  Variables (useAlt : bool) (addTo : N) (cmpA : A -> A -> Z).
  Hypothesis CA : total_cmp cmpA.
  Variable joinFn : joins A.
  Variables (visit : tbm -> list N) (iterate : list (N * pentry) -> list (N * pentry)) (tbmMax : N).
  Hypothesis IT : forall l, Permutation (iterate l) l.
  Notation item := (item A).
  Notation skey := (skey A).
  Notation cmpAt := (cmpAt useAlt addTo cmpA).
  Notation qentry := (@qentry A).

  Theorem scanAlt_spec (qs : list qentry) (keys : list skey) :
    let cmp := compareRumItem true cmpA in
    isScanWithAltOrderKeys useAlt addTo keys = true ->
    query_ok qs keys -> NoDup (flat_map sk_ents keys) ->
    (forall q, In q qs -> found_ok (cmpAt (q_att q)) (q_found q) (q_refind q) /\ ssorted (cmpAt (q_att q)) (rows_found (joinFn (q_att q)) (q_found q)) /\
       forall y, In y (rows_found (joinFn (q_att q)) (q_found q)) -> (1 <= off (ip y) <= MAX_TUPLES_PER_PAGE)%N) ->
    (forall q q' y y', In q qs -> In q' qs -> q_att q = addTo -> q_att q' = addTo ->
       In y (rows_found (joinFn (q_att q)) (q_found q)) -> In y' (rows_found (joinFn (q_att q')) (q_found q')) -> ip y = ip y' -> cmp y y' = 0) ->
    (exists k, In k keys /\ sk_order k = false /\ sk_att k = addTo) ->
    (exists k, In k keys /\ sk_order k = false /\ sk_att k <> addTo) ->
    let out := scanRegular useAlt addTo cmpA joinFn visit iterate tbmMax (map start qs) keys in
    ssorted cmp (map (fun o => fst (fst o)) out) /\
    (forall p, (forall k, In k keys -> sk_order k = false -> matches addTo (rows joinFn qs) k p) -> exists o, In o out /\ ip (fst (fst o)) = p) /\
    (forall x re st, In (x, re, st) out ->
       (forall k, In k keys -> sk_order k = false -> sk_att k = addTo ->
          matches addTo (rows joinFn qs) k (ip x) /\ (asks_recheck (rows joinFn qs) k (ip x) -> re = true)) /\
       ((length (filter (usual addTo) keys) <= 1)%nat -> re = false ->
          forall k, In k keys -> sk_order k = false -> matches addTo (rows joinFn qs) k (ip x))).
  Proof.
    intros cmp Halt HQ ND HF HAl (k1 & K1 & K1o & K1a) (k2 & K2 & K2o & K2a). cbv zeta.
    set (Cs := rows joinFn qs) in *.
    assert (UA : useAlt = true).
    { unfold isScanWithAltOrderKeys in Halt. apply andb_true_iff in Halt as [_ H]. apply existsb_exists in H as (k & _ & H).
      apply andb_true_iff in H as [H _]. exact H. }
    assert (CT : forall att, att = addTo -> cmpAt att = cmp).
    { intros att ->. unfold ScanEntry.cmpAt, altOf. rewrite UA, N.eqb_refl. reflexivity. }
    assert (CF : forall att, att <> addTo -> cmpAt att = cmp0 cmpA).
    { intros att N. unfold ScanEntry.cmpAt, altOf. apply N.eqb_neq in N. rewrite N, andb_false_r. reflexivity. }
    assert (OK : total_cmp cmp) by (apply cri_total; exact CA).
    assert (LC : length Cs = length qs) by (unfold Cs, rows; rewrite map_length; reflexivity).
    set (atts := map q_att qs).
    set (usedb := fun n => (n <? length Cs)%nat && (addTo =? nth n atts 0%N)%N).
    assert (UL : forall n, usedb n = true -> (n < length Cs)%nat) by (intros n H; apply andb_true_iff in H as [H _]; apply Nat.ltb_lt; exact H).
    assert (QL : forall n, (n < length Cs)%nat -> exists q, nth_error qs n = Some q /\ In q qs /\ nth n atts 0%N = q_att q /\ nth n Cs [] = rows_found (joinFn (q_att q)) (q_found q)).
    { intros n U. rewrite LC in U. destruct (nth_start joinFn qs n U) as (q & E1 & E2 & E3).
      exists q. split; [exact E1|]. split; [apply nth_error_In in E1; exact E1|]. split; [|exact E3].
      apply nth_error_nth. unfold atts. rewrite nth_error_map, E1. reflexivity. }
    assert (QN : forall n, usedb n = true -> exists q, nth_error qs n = Some q /\ In q qs /\ nth n atts 0%N = q_att q /\ nth n Cs [] = rows_found (joinFn (q_att q)) (q_found q) /\ q_att q = addTo).
    { intros n U. destruct (QL n (UL n U)) as (q & E1 & E2 & E3 & E4). exists q. repeat (split; [assumption|]).
      apply andb_true_iff in U as [_ U]. apply N.eqb_eq in U. congruence. }
    assert (OFFV : forall y : item, (1 <= off (ip y) <= MAX_TUPLES_PER_PAGE)%N -> ip_valid (ip y) = true).
    { intros y H. unfold ip_valid. apply negb_true_iff, N.eqb_neq. lia. }
    assert (EqIp : forall x y, cmp x y = 0 -> ip x = ip y).
    { intros x y E. apply (cmpAt_eq_ip useAlt addTo cmpA addTo). rewrite (CT addTo eq_refl). exact E. }
    assert (MinLt : forall x, ip_valid (ip x) = true -> cmp item_min x < 0).
    { intros x V. rewrite <- (CT addTo eq_refl). apply cmpAt_min. exact V. }
    assert (HC : forall n, usedb n = true -> cmpAt (nth n atts 0%N) = cmp).
    { intros n U. destruct (QN n U) as (q & _ & Q2 & -> & _ & Q5). apply CT, Q5. }
    assert (HR : forall n y, usedb n = true -> In y (nth n Cs []) -> ip_valid (ip y) = true).
    { intros n y U Hy. destruct (QN n U) as (q & _ & Q2 & _ & Q4 & _). rewrite Q4 in Hy. apply OFFV. apply (HF q Q2). exact Hy. }
    assert (HS : forall n, usedb n = true -> ssorted cmp (nth n Cs [])).
    { intros n U. destruct (QN n U) as (q & _ & Q2 & _ & Q4 & Q5). rewrite Q4, <- (CT _ Q5). apply (HF q Q2). }
    assert (HA : forall n m y y', usedb n = true -> usedb m = true -> In y (nth n Cs []) -> In y' (nth m Cs []) -> ip y = ip y' -> cmp y y' = 0).
    { intros n m y y' U U' Hy Hy' E. destruct (QN n U) as (q & _ & Q2 & _ & Q4 & Q5). destruct (QN m U') as (q' & _ & Q2' & _ & Q4' & Q5').
      rewrite Q4 in Hy. rewrite Q4' in Hy'. apply (HAl q q'); assumption. }
    assert (HUE : forall n, (n < length Cs)%nat -> negb (true && negb (addTo =? nth n atts 0%N)%N) = usedb n).
    { intros n L. unfold usedb. apply Nat.ltb_lt in L. rewrite L. cbn [andb]. apply negb_involutive. }
    assert (UK : forall k : skey, Scan.useKey addTo true k = negb (sk_order k) && (addTo =? sk_att k)%N).
    { intro k. unfold Scan.useKey. cbn [andb]. rewrite negb_orb, negb_involutive. reflexivity. }
    assert (KN : forall k n, In k keys -> In n (sk_ents k) -> (n < length Cs)%nat /\ nth n atts 0%N = sk_att k).
    { intros k n Hk Hn. destruct HQ as (Q1 & _). destruct (Q1 k n Hk Hn) as (q & E & EA).
      assert (L : (n < length Cs)%nat) by (rewrite LC; apply nth_error_Some; rewrite E; discriminate). split; [exact L|].
      rewrite <- EA. apply nth_error_nth. unfold atts. rewrite nth_error_map, E. reflexivity. }
    assert (KU : forall k n, In k keys -> In n (sk_ents k) -> usedb n = (addTo =? sk_att k)%N).
    { intros k n Hk Hn. destruct (KN k n Hk Hn) as [L E]. unfold usedb. apply Nat.ltb_lt in L. rewrite L, E. reflexivity. }
    assert (KOK : forall k, In k keys -> key_ok useAlt addTo cmpA cmp true usedb k).
    { intros k Hk. split.
      - rewrite UK. intro U. apply andb_true_iff in U as [_ U]. split; [apply CT; apply N.eqb_eq in U; congruence|].
        intros n Hn. rewrite (KU k n Hk Hn). exact U.
      - intros _ n Hn U. rewrite (KU k n Hk Hn) in U. apply CT. apply N.eqb_eq in U. congruence. }
    assert (HK : Keys useAlt addTo cmpA cmp true usedb keys).
    { split; [apply Forall_forall; exact KOK|]. exists k1. split; [exact K1|]. rewrite UK, K1o, K1a, N.eqb_refl. reflexivity. }
    set (past := mkItem (A:=A) ip_invalid None).
    assert (PV : ip_valid (ip past) = false) by reflexivity.
    assert (STn : forall n, (n < length Cs)%nat -> started useAlt addTo cmpA joinFn (Scan.ent (map start qs) n) (nth n Cs [])).
    { intros n L. destruct (QL n L) as (q & Q1 & Q2 & _ & Q4). pose proof L as L'. rewrite LC in L'.
      destruct (nth_start joinFn qs n L') as (q' & E1 & E2 & _). rewrite Q1 in E1. apply Some_inj in E1. subst q'.
      rewrite E2, Q4. destruct (HF q Q2) as (F1 & F2 & F3). apply start_started with (cmp := cmpAt (q_att q)); [exact CA|reflexivity|exact F2| |exact F1].
      intros y Hy. specialize (F3 y Hy). lia. }
    assert (ATT : forall n, (n < length Cs)%nat -> e_att (Scan.ent (map start qs) n) = nth n atts 0%N).
    { intros n L. destruct (QL n L) as (q & Q1 & _ & Q3 & _). rewrite LC in L.
      destruct (nth_start joinFn qs n L) as (q' & E1 & E2 & _). rewrite Q1 in E1. apply Some_inj in E1. subst q'. rewrite E2, start_att. congruence. }
    set (keys0 := map (fun k : skey => (k, @startScanKey A)) keys).
    assert (IK : forall k ks, In (k, ks) keys0 -> In k keys /\ ks = startScanKey).
    { intros k ks H. apply in_map_iff in H as (k' & E & H). injection E as <- <-. auto. }
    assert (PI : prep_inv useAlt addTo cmpA joinFn Cs atts keys0 (map start qs)).
    { split; [rewrite map_length; symmetry; exact LC|]. split; [exact ATT|]. split.
      - unfold keys0. rewrite flat_map_concat_map, map_map. cbn [fst]. rewrite <- flat_map_concat_map. exact ND.
      - intros k ks H U. destruct (IK k ks H) as [Hk ->]. unfold usual in U. apply negb_true_iff, orb_false_iff in U as [U1 U2].
        apply N.eqb_neq in U2. split; [|split; [reflexivity|intros n Hn; apply STn; apply (KN k n Hk Hn)]].
        intros n Hn. destruct (KN k n Hk Hn) as [L E]. destruct (QL n L) as (q & Q1 & Q2 & Q3 & Q4). destruct (HF q Q2) as (_ & F2 & F3).
        assert (CQ : cmpAt (nth n atts 0%N) = cmp0 cmpA) by (apply CF; congruence).
        split; [exact L|]. split; [exact CQ|]. rewrite Q4. split; [rewrite <- CQ, Q3; exact F2|].
        intros y Hy. specialize (F3 y Hy). split; [apply OFFV; exact F3|lia]. }
    (* the two ways of reading the bitmap *)
    set (out := scanRegular useAlt addTo cmpA joinFn visit iterate tbmMax (map start qs) keys).
    destruct (prepare_bitmap useAlt addTo cmpA joinFn visit iterate tbmMax (map start qs) keys0 (tbm_create tbmMax) false) as [[ents1 keys1] t1] eqn:PB.
    set (st1 := mkSst ents1 keys1 true t1).
    assert (OUT : out = match regular_loop useAlt addTo cmpA joinFn (S (total_bound ents1)) st1 past with
         | None => []
         | Some (st', x, re) => (x, re, st') :: runRegular useAlt addTo cmpA joinFn visit iterate tbmMax (total_bound (map start qs)) st' x
         end).
    { unfold out, scanRegular. cbn [runRegular]. unfold scanGetItemRegular, startRegular at 1.
      cbn [s_alt s_ents s_keys s_tbm]. rewrite Halt. fold past. rewrite PV. cbn [andb negb]. fold keys0.
      unfold startRegular. cbn [s_alt s_ents s_keys s_tbm]. fold keys0. rewrite PB, ?Halt. reflexivity. }
    assert (PS : forall inter, (inter = true \/ false = false /\ (length (filter (fun kk => usual addTo (fst kk)) keys0) <= 1)%nat) ->
      (exists S', collected visit iterate inter t1 S' /\ forall x, S' x <-> (forall k, In k keys -> usual addTo k = true -> matches addTo Cs k x)) /\
      length ents1 = length Cs /\ (forall n, (n < length Cs)%nat -> e_att (Scan.ent ents1 n) = nth n atts 0%N) /\
      (forall n, (forall kk, In kk keys0 -> usual addTo (fst kk) = true -> ~ In n (sk_ents (fst kk))) -> Scan.ent ents1 n = Scan.ent (map start qs) n) /\
      map fst keys1 = map fst keys0 /\ (forall k ks, In (k, ks) keys1 -> usual addTo k = false -> In (k, ks) keys0)).
    { intros inter HX. pose proof (prepare_spec useAlt addTo cmpA CA joinFn visit iterate tbmMax Cs atts keys0 (map start qs) (tbm_create tbmMax) false inter
        (fun _ => False) PI (col_empty _ _ _ _) (fun _ x F => F) HX) as P.
      rewrite PB in P. destruct P as ((S' & P1 & P2) & P3). split; [|exact P3]. exists S'. split; [exact P1|]. intro x. rewrite P2. split.
      - intros [_ H] k Hk U. apply (H (k, startScanKey)); [apply in_map_iff; exists k; auto|exact U].
      - intro H. split; [exists (k2, startScanKey); split; [apply in_map_iff; exists k2; auto|]|].
        + cbn [fst]. unfold usual. rewrite K2o. cbn [orb]. apply N.eqb_neq in K2a. rewrite N.eqb_sym, K2a. reflexivity.
        + intros [k ks] Hk U. cbn [fst] in *. apply H; [apply (IK k ks Hk)|exact U]. }
    destruct (PS true (or_introl eq_refl)) as ((S1 & P1 & P2) & P3 & P4 & P5 & P6 & P7).
    set (tb := fun p => rum_tbm_contains_tid t1 p).
    assert (HE : Est Cs atts usedb (ready useAlt addTo cmpA joinFn cmp past) (s_ents st1)).
    { split; [exact P3|]. split; [exact P4|]. intros n U. unfold ready. rewrite PV. cbn [s_ents st1]. rewrite P5; [apply STn, UL, U|].
      intros [k ks] Hk Us Hn. cbn [fst] in *. destruct (IK k ks Hk) as [Hk' _]. rewrite (KU k n Hk' Hn) in U.
      unfold usual in Us. rewrite U, orb_true_r in Us. discriminate. }
    assert (KM0 : map fst keys0 = keys) by (unfold keys0; rewrite map_map; cbn [fst]; apply map_id).
    assert (KM : map fst (s_keys st1) = keys) by (cbn [s_keys st1]; congruence).
    assert (KS : keys_ok addTo true Cs (s_keys st1)).
    { intros k ks H U. cbn [s_keys st1] in H. rewrite UK in U. apply andb_true_iff in U as [U1 U2].
      assert (Us : usual addTo k = false) by (unfold usual; rewrite U2, orb_true_r; reflexivity).
      destruct (IK k ks (P7 k ks H Us)) as [_ ->]. split; [reflexivity|]. intro V. discriminate. }
    assert (MB : (measure cmp Cs usedb (point past) <= total_bound (map start qs))%nat).
    { apply (measure_bound useAlt addTo cmpA joinFn cmp EqIp MinLt Cs atts usedb UL HC HR HS HA).
      split; [rewrite map_length; symmetry; exact LC|]. split; [exact ATT|]. intros n U. unfold ready. rewrite PV. apply STn, UL, U. }
    assert (RUN := run_first useAlt addTo cmpA CA joinFn visit iterate tbmMax cmp OK EqIp MinLt true Cs atts usedb UL HC HR HS HA tb HUE keys HK
      (total_bound (map start qs)) st1 past eq_refl (fun _ => eq_refl) HE KM KS MB).
    cbn [s_ents st1] in RUN. fold st1 in RUN. rewrite <- OUT in RUN.
    destruct RUN as (R1 & R2 & R3 & R4). rewrite Forall_forall in R3.
    assert (USK : forall k, In k keys -> sk_order k = false -> sk_att k <> addTo -> usual addTo k = true).
    { intros k _ O N. unfold usual. rewrite O. cbn [orb]. apply N.eqb_neq in N. rewrite N.eqb_sym, N. reflexivity. }
    split; [exact R1|]. split.
    - intros p G. destruct (G k1 K1 K1o) as [(n & y & Y1 & Y2 & Y3) _].
      assert (RY : is_row Cs usedb y).
      { exists n. split; [|exact Y2]. rewrite (KU k1 n K1 Y1). apply N.eqb_eq. congruence. }
      destruct (R4 y RY) as (o & O1 & O2).
      + unfold point. rewrite PV. apply MinLt. destruct RY as (m & U & I). apply (HR m y U I).
      + rewrite Y3. split.
        * intros k Hk U. rewrite UK in U. apply andb_true_iff in U as [U _]. apply G; [exact Hk|]. apply negb_true_iff. exact U.
        * apply (C40_no_row_lost visit iterate true t1 S1 IT P1). apply P2. intros k Hk U. apply G; [exact Hk|].
          unfold usual in U. apply negb_true_iff, orb_false_iff in U as [U _]. exact U.
      + exists o. split; [exact O1|congruence].
    - intros x re st Ho. destruct (R3 _ Ho) as (RX & [G1 G2] & fre & F1 & F2 & F3 & F4 & F5). cbn [fst snd] in *.
      assert (ADD : forall k, In k keys -> sk_order k = false -> sk_att k = addTo -> Scan.useKey addTo true k = true).
      { intros k _ O E. rewrite UK, O, E, N.eqb_refl. reflexivity. }
      split.
      + intros k Hk O E. pose proof (ADD k Hk O E) as U. split; [apply G1; assumption|].
        intro AR. apply (recheck_iff addTo) in AR. rewrite <- F3 in Hk. apply in_map_iff in Hk as ([k' ks] & E' & Hk). cbn [fst] in E'. subst k'.
        rewrite F1, F2. apply orb_true_iff. left. apply existsb_exists. exists (k, ks). split; [exact Hk|]. cbn [fst snd]. rewrite O. cbn [negb andb].
        rewrite (proj1 (F4 k ks Hk U)). exact AR.
      + intros ONE RF k Hk O. destruct (N.eq_dec (sk_att k) addTo) as [E|E]; [apply G1; [exact Hk|apply ADD; assumption]|].
        assert (LEN : length (filter (fun kk => usual addTo (fst kk)) keys0) = length (filter (usual addTo) keys)).
        { unfold keys0. clear. induction keys as [|k r IHr]; [reflexivity|]. cbn [map filter fst]. destruct (usual addTo k); cbn [length]; congruence. }
        assert (LEN1 : (length (filter (fun kk => usual addTo (fst kk)) keys0) <= 1)%nat) by (rewrite LEN; exact ONE).
        destruct (PS false (or_intror (conj eq_refl LEN1))) as ((S2 & B1 & B2) & _).
        assert (SX : S2 (ip x)).
        { apply (C40_exact_pages_partial visit iterate t1 S2 IT B1).
          - destruct RX as (n & U & I). specialize (HR n x U I). unfold ip_valid in HR. apply negb_true_iff, N.eqb_neq in HR. lia.
          - subst re. apply orb_false_iff in RF as [_ RF]. cbn [andb] in RF. unfold tb in *. destruct (rum_tbm_contains_tid t1 (ip x)) as [b1 b2]. cbn [fst snd] in *. congruence. }
        apply B2 with (k := k) in SX; [exact SX|exact Hk|apply USK; assumption].
  Qed.
End Alt.
