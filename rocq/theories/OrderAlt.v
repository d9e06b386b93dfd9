(** Ordering by the attached column in an index ordered by it (order_by_attach), regular scan: the ordering key
    makes startScan believe that conditions in row order are present, and the bitmap of their rows, which no
    condition fills, lets no row pass. *)
From Coq Require Import NArith ZArith Lia List Permutation Sorted Bool Arith.
From Verif Require Import Base Ord Codec Entries Bulk BTree PostingTree EntryTree IndexSpec ScanEntry Scan ScanSpec TidBitmap IndexScan QuerySpec OrderScan OrderSpec.
Import ListNotations.
Local Open Scope Z_scope.

Section Alt.
  Context {A : Type}.
  Variables (useAlt : bool) (addTo : N) (cmpA : A -> A -> Z) (joinFn : joins A).
  Variables (visit : tbm -> list N) (iterate : list (N * pentry) -> list (N * pentry)) (tbmMax : N).
  Notation skey := (skey A).

  Lemma empty_contains m p : rum_tbm_contains_tid (tbm_create m) p = (false, false).
  Proof. reflexivity. Qed.
  Lemma empty_loop m : forall fuel (st : sst (A := A)) past, s_alt st = true -> s_tbm st = tbm_create m ->
    regular_loop useAlt addTo cmpA joinFn fuel st past = None.
  Proof.
    induction fuel as [|f IH]; intros st past Ha Ht; [reflexivity|]. cbn [regular_loop]. rewrite Ha, Ht.
    destruct (forallb _ _); [reflexivity|]. destruct (keysGet _ _ _ _ _ _ _) as [[keys [x|]]|]; try reflexivity.
    rewrite empty_contains, andb_false_r. apply IH; reflexivity.
  Qed.
  Lemma prepare_none : forall (keys : list (skey * kst A)) ents t b, (forall k, In k (map fst keys) -> sk_order k = true \/ sk_att k = addTo) ->
    prepare_bitmap useAlt addTo cmpA joinFn visit iterate tbmMax ents keys t b = (ents, keys, t).
  Proof.
    induction keys as [|[k ks] r IH]; intros ents t b H; cbn [prepare_bitmap]; [reflexivity|].
    assert (E : sk_order k || (addTo =? sk_att k)%N = true).
    { destruct (H k (or_introl eq_refl)) as [-> |E]; [reflexivity|]. rewrite E, N.eqb_refl. apply orb_true_r. }
    rewrite E, IH; [reflexivity|]. intros k' Hk'. apply H. right. exact Hk'.
  Qed.
  Lemma scan_none ents (keys : list skey) : isScanWithAltOrderKeys useAlt addTo keys = true ->
    (forall k, In k keys -> sk_order k = true \/ sk_att k = addTo) ->
    scanRegular useAlt addTo cmpA joinFn visit iterate tbmMax ents keys = [].
  Proof.
    intros Ha Hk. unfold scanRegular, startRegular. rewrite Ha. cbn [runRegular].
    assert (E : scanGetItemRegular useAlt addTo cmpA joinFn visit iterate tbmMax (mkSst ents (map (fun k => (k, startScanKey)) keys) true (tbm_create tbmMax)) (mkItem ip_invalid None) = None).
    { unfold scanGetItemRegular. cbn [s_alt s_ents s_keys s_tbm]. rewrite prepare_none.
      2:{ intros k. rewrite map_map. cbn. rewrite map_id. apply Hk. }
      apply empty_loop with (m := tbmMax); reflexivity. }
    rewrite E. reflexivity.
  Qed.
End Alt.

Section Query.
  Context {K D : Type}.
  Variables (dcmp : D -> D -> Z) (dinf : D) (dflt : K).
  Variables (addTo attach : N) (curKeyOrdering : N -> bool) (compareFn : N -> K -> K -> Z) (cmpA : datum -> datum -> Z).
  Variable tuplesort : (PostingTree.row -> PostingTree.row -> Z) -> list PostingTree.row -> list PostingTree.row.
  Variable junk : qreq K -> PostingTree.row.
  Variable joinFn : joins datum.
  Variables (canPre : N -> bool) (estimate : (istate (K:=K)) -> qreq K -> N) (sortEnts : list (entry datum) -> list nat).
  Variables (visit : tbm -> list N) (iterate : list (N * pentry) -> list (N * pentry)) (tbmMax : N).
  Variable sortItems : ((sitem (D:=D)) -> (sitem (D:=D)) -> Z) -> list (sitem (D:=D)) -> list (sitem (D:=D)).
  Notation query := (orderedScan dcmp dinf dflt addTo attach curKeyOrdering compareFn true cmpA tuplesort junk joinFn canPre estimate sortEnts visit iterate tbmMax sortItems).

  Lemma numbered_in : forall (ks : list (kspec (K:=K))) n k, In k (numbered n ks) -> exists s l, In s ks /\ k = kp_key s l.
  Proof.
    induction ks as [|s r IH]; intros n k H; [destruct H|]. cbn [numbered] in H. destruct H as [<-|H].
    - exists s. eexists. split; [left; reflexivity|reflexivity].
    - destruct (IH _ _ H) as (s' & l & Hs & E). exists s', l. split; [right; exact Hs|exact E].
  Qed.
  Lemma numbered_out : forall (ks : list (kspec (K:=K))) n s, In s ks -> exists l, In (kp_key s l) (numbered n ks).
  Proof.
    induction ks as [|s' r IH]; intros n s H; [destruct H|]. cbn [numbered]. destruct H as [-> |H].
    - eexists. left. reflexivity.
    - destruct (IH (n + length (kp_reqs s'))%nat s H) as [l Hl]. exists l. right. exact Hl.
  Qed.
  Lemma numbered_len : forall (ks : list (kspec (K:=K))) n, length (numbered n ks) = length ks.
  Proof. induction ks as [|s r IH]; intro n; [reflexivity|]. cbn [numbered length]. rewrite IH. reflexivity. Qed.

  Theorem alt_order_empty ix conds (orders : list (ordering K D)) c0 o :
    sortItems (fun a b => comparetup_rum dcmp (snd a) (snd b)) [] = [] ->
    In c0 conds -> (forall c, In c conds -> cl_att c = addTo) -> attach <> addTo ->
    In o (lives orders) -> cl_att (od_clause o) = attach ->
    (canPre addTo = false \/ exists c q, In c conds /\ In q (requests dflt c) /\ rq_partial q <> None) ->
    query ix conds orders = Some [] \/ query ix conds orders = None.
  Proof.
    intros Hsi H0 Hc Hne Ho Hoa Hreg. unfold orderedScan, newScanKeys. destruct (existsb noKey conds) eqn:En; [left; reflexivity|].
    set (os := filter (fun o => negb (noKey o)) (map od_clause orders)).
    set (ws := existsb (bare attach curKeyOrdering) os).
    assert (EK : (match conds with [] => [everyKey dflt ws] | _ => condKeys dflt addTo attach ws conds end) = map (searchKey dflt None ws) conds).
    { destruct conds as [|c r]; [destruct H0|]. unfold condKeys, movesOn. replace (existsb (onAttach attach) (c :: r)) with false; [rewrite andb_false_r; reflexivity|].
      symmetry. destruct (existsb (onAttach attach) (c :: r)) eqn:E; [|reflexivity]. apply existsb_exists in E as (x & Hx & E). apply N.eqb_eq in E. specialize (Hc x Hx). congruence. }
    rewrite EK. set (ks := map (searchKey dflt None ws) conds ++ map (orderKey dflt addTo attach curKeyOrdering ws) os).
    assert (Hfast : isFast canPre ks = false).
    { unfold isFast, ks. destruct Hreg as [E|(c & q & Hc1 & Hq & Hp)].
      - rewrite forallb_app. replace (forallb (fun k : kspec => canPre (kp_att k)) (map (searchKey dflt None ws) conds)) with false; [reflexivity|].
        symmetry. apply not_true_is_false. intro F. rewrite forallb_forall in F. specialize (F _ (in_map _ _ _ H0)). cbn in F. rewrite (Hc _ H0), E in F. discriminate.
      - apply andb_false_iff. right. apply not_true_is_false. intro F. rewrite forallb_forall in F.
        assert (I : In q (flat_map kp_reqs (map (searchKey dflt None ws) conds ++ map (orderKey dflt addTo attach curKeyOrdering ws) os))).
        { rewrite in_flat_map. exists (searchKey dflt None ws c). split; [apply in_or_app; left; apply in_map; exact Hc1|exact Hq]. }
        specialize (F q I). destruct (rq_partial q); [discriminate|congruence]. }
    rewrite Hfast. destruct (findEntries _ _ _ _ _ _ _ _) as [es|]; [|right; reflexivity]. left.
    assert (Hos : In (od_clause o) os).
    { unfold lives in Ho. apply filter_In in Ho as [Ho1 Ho2]. apply filter_In. split; [apply in_map; exact Ho1|exact Ho2]. }
    rewrite scan_none; [cbn [map insertAll]; rewrite Hsi; reflexivity| |].
    - unfold isScanWithAltOrderKeys. destruct (numbered_out ks 0 (searchKey dflt None ws c0)) as [l1 I1]; [apply in_or_app; left; apply in_map; exact H0|].
      destruct (numbered_out ks 0 (orderKey dflt addTo attach curKeyOrdering ws (od_clause o))) as [l2 I2]; [apply in_or_app; right; apply in_map; exact Hos|].
      apply andb_true_iff. split; [apply andb_true_iff; split|].
      + rewrite numbered_len. unfold ks. rewrite app_length, !map_length. destruct conds as [|c r]; [destruct H0|]. destruct os as [|o' r']; [destruct Hos|]. cbn [length].
        apply negb_true_iff, Nat.eqb_neq. lia.
      + apply existsb_exists. eexists. split; [exact I2|]. cbn [sk_att orderKey kp_key andb]. rewrite Hoa. apply negb_true_iff, N.eqb_neq. congruence.
      + apply existsb_exists. eexists. split; [exact I1|]. cbn [sk_att searchKey kp_key andb]. rewrite (Hc _ H0). apply N.eqb_refl.
    - intros k Hk. destruct (numbered_in _ _ _ Hk) as (s & l & Hs & ->). apply in_app_or in Hs as [Hs|Hs]; apply in_map_iff in Hs as (c & <- & Hs); cbn [sk_order sk_att searchKey orderKey kp_key]; auto.
  Qed.
End Query.
