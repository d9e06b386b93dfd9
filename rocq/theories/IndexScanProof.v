(** Proofs: a query on the index returns the rows of the table that satisfy it (C46). *)
From Coq Require Import NArith ZArith Lia List Permutation Sorted Bool Arith.
From Verif Require Import Base Ord OrdProof Codec CodecSpec LeafPage LeafSpec LeafCodec Entries EntriesSpec EntriesProof Bulk BulkSpec BTree BTreeInv BTreeFind PostingTree PostingTreeSpec PostingTreeProof EntryTree EntryTreeProof IndexSpec IndexProof IndexHeap ScanEntry ScanEntryProof TidBitmap Scan ScanSpec ScanRegular ScanFast IndexScan VacTreeSpec VacIndex VacScanSpec LifeSpec QuerySpec TreeFound EntryFound LifeQuery.
Import ListNotations.
Local Open Scope Z_scope.

Lemma map_nth_seq {T U} (g : T -> U) (d : T) (a b c : list T) : map (fun n => g (nth n (a ++ b ++ c) d)) (seq (length a) (length b)) = map g b.
Proof.
  revert a. induction b as [|x b IH]; intro a; [reflexivity|]. cbn [length seq map]. f_equal.
  - f_equal. rewrite app_nth2 by lia. rewrite Nat.sub_diag. reflexivity.
  - specialize (IH (a ++ [x])). rewrite app_length in IH. cbn [length] in IH. rewrite Nat.add_1_r, <- app_assoc in IH. exact IH.
Qed.

(** ** scan keys *)
Section Keys.
  Context {K : Type}.
  Notation kspec := (@kspec K).
  Notation qreq := (qreq K).
  Notation reqs ks := (flat_map kp_reqs ks).
  Definition ks_ok (s : kspec) : Prop := forall ents, sk_ents (kp_key s ents) = ents /\ forall q, In q (kp_reqs s) -> rq_att q = sk_att (kp_key s ents).
  (** nothing but the numbers of the query keys depends on the numbering *)
  Definition ks_const (s : kspec) : Prop := forall ents, sk_att (kp_key s ents) = sk_att (kp_key s []) /\ sk_order (kp_key s ents) = sk_order (kp_key s []) /\
    sk_cons (kp_key s ents) = sk_cons (kp_key s []) /\ sk_every (kp_key s ents) = sk_every (kp_key s []) /\ sk_subs (kp_key s ents) = sk_subs (kp_key s []) /\
    sk_pre (kp_key s ents) = sk_pre (kp_key s []).

  Lemma numbered_in (ks : list kspec) : forall n k, In k (numbered n ks) <->
    exists l1 s l2, ks = l1 ++ s :: l2 /\ k = kp_key s (seq (n + length (reqs l1)) (length (kp_reqs s))).
  Proof.
    induction ks as [|s ks IH]; intros n k; cbn [numbered].
    - split; [intros []|]. intros (l1 & s & l2 & E & _). destruct l1; discriminate.
    - split.
      + intros [<-|H].
        * exists [], s, ks. split; [reflexivity|]. cbn. rewrite Nat.add_0_r. reflexivity.
        * apply IH in H as (l1 & s' & l2 & -> & ->). exists (s :: l1), s', l2. split; [reflexivity|]. cbn [flat_map]. rewrite app_length, Nat.add_assoc. reflexivity.
      + intros (l1 & s' & l2 & E & ->). destruct l1 as [|s1 l1]; cbn [app] in E; injection E as <- ->.
        * left. cbn. rewrite Nat.add_0_r. reflexivity.
        * right. apply IH. exists l1, s', l2. split; [reflexivity|]. cbn [flat_map]. rewrite app_length, Nat.add_assoc. reflexivity.
  Qed.
  Lemma numbered_of (ks : list kspec) s : In s ks -> exists ents, In (kp_key s ents) (numbered 0 ks).
  Proof. intro H. apply in_split in H as (l1 & l2 & ->). eexists. apply numbered_in. exists l1, s, l2. split; reflexivity. Qed.
  Lemma sees_key (F : qreq -> list (item datum)) l1 s l2 n p : ks_ok s -> n = length (reqs l1) ->
    sees (map F (reqs (l1 ++ s :: l2))) (kp_key s (seq n (length (kp_reqs s)))) p = map (fun q => present (F q) p) (kp_reqs s).
  Proof.
    intros Hok ->. unfold sees. destruct (Hok (seq (length (reqs l1)) (length (kp_reqs s)))) as [-> _].
    rewrite flat_map_app. cbn [flat_map]. rewrite !map_app.
    pose proof (map_nth_seq (fun C => present C p) [] (map F (reqs l1)) (map F (kp_reqs s)) (map F (reqs l2))) as H.
    rewrite !map_length in H. rewrite H, map_map. reflexivity.
  Qed.
  Lemma ents_rows (F : qreq -> list (item datum)) l1 s l2 n p : ks_ok s -> n = length (reqs l1) ->
    (exists m y, In m (sk_ents (kp_key s (seq n (length (kp_reqs s))))) /\ In y (nth m (map F (reqs (l1 ++ s :: l2))) []) /\ ip y = p) <->
    exists q y, In q (kp_reqs s) /\ In y (F q) /\ ip y = p.
  Proof.
    intros Hok ->. destruct (Hok (seq (length (reqs l1)) (length (kp_reqs s)))) as [-> _].
    pose proof (map_nth_seq (fun C : list (item datum) => C) [] (map F (reqs l1)) (map F (kp_reqs s)) (map F (reqs l2))) as H.
    rewrite !map_length, map_id in H. rewrite flat_map_app. cbn [flat_map]. rewrite !map_app. split.
    - intros (m & y & Hm & Hy & Ep). apply (in_map (fun n => nth n (map F (reqs l1) ++ map F (kp_reqs s) ++ map F (reqs l2)) [])) in Hm. rewrite H in Hm.
      apply in_map_iff in Hm as (q & Eq & Hq). exists q, y. rewrite Eq. auto.
    - intros (q & y & Hq & Hy & Ep). apply (in_map F) in Hq. rewrite <- H in Hq. apply in_map_iff in Hq as (m & Em & Hm). exists m, y. rewrite Em. auto.
  Qed.
  Lemma query_ok_numbered (ks : list kspec) (es : list (qentry (A := datum))) : Forall ks_ok ks -> map q_att es = map rq_att (reqs ks) -> query_ok es (numbered 0 ks).
  Proof.
    intros Hok He.
    assert (Hlen : length es = length (reqs ks)) by (rewrite <- (map_length q_att), He, map_length; reflexivity).
    split.
    - intros k n Hk Hn. apply numbered_in in Hk as (l1 & s & l2 & -> & ->). cbn [Nat.add] in *.
      rewrite Forall_forall in Hok. destruct (Hok s ltac:(apply in_app_iff; right; left; reflexivity) (seq (length (reqs l1)) (length (kp_reqs s)))) as [Ee Ha]. rewrite Ee in Hn.
      apply in_seq in Hn. destruct (nth_error (reqs (l1 ++ s :: l2)) n) as [q|] eqn:Eq.
      2: { apply nth_error_None in Eq. rewrite flat_map_app, app_length in Eq. cbn [flat_map] in Eq. rewrite app_length in Eq. lia. }
      pose proof (map_nth_error rq_att _ _ Eq) as E1. rewrite <- He in E1. rewrite nth_error_map in E1. destruct (nth_error es n) as [e|]; [|discriminate].
      exists e. split; [reflexivity|]. injection E1 as ->. apply Ha. rewrite flat_map_app in Eq. rewrite nth_error_app2 in Eq by lia. cbn [flat_map] in Eq.
      rewrite nth_error_app1 in Eq by lia. eapply nth_error_In; eauto.
    - intros n e Hn. assert (Hlt : (n < length (reqs ks))%nat) by (rewrite <- Hlen; apply nth_error_Some; congruence).
      clear He Hlen Hn. assert (exists l1 s l2, ks = l1 ++ s :: l2 /\ (length (reqs l1) <= n < length (reqs l1) + length (kp_reqs s))%nat) as (l1 & s & l2 & -> & Hr).
      { clear Hok. revert n Hlt. induction ks as [|s ks IH]; intros n Hlt; [cbn in Hlt; lia|]. cbn [flat_map] in Hlt. rewrite app_length in Hlt.
        destruct (Nat.lt_ge_cases n (length (kp_reqs s))) as [L|L].
        - exists [], s, ks. split; [reflexivity|]. cbn. lia.
        - destruct (IH (n - length (kp_reqs s))%nat) as (l1 & s' & l2 & -> & Hr); [lia|]. exists (s :: l1), s', l2. split; [reflexivity|]. cbn [flat_map]. rewrite app_length. lia. }
      exists (kp_key s (seq (length (reqs l1)) (length (kp_reqs s)))). split; [apply numbered_in; exists l1, s, l2; split; reflexivity|].
      rewrite Forall_forall in Hok. destruct (Hok s ltac:(apply in_app_iff; right; left; reflexivity) (seq (length (reqs l1)) (length (kp_reqs s)))) as [-> _]. apply in_seq. lia.
  Qed.
End Keys.

Section Assemble.
  Context {K : Type}.
  Variable compareFn : N -> K -> K -> Z.
  Variable altOf : N -> bool.
  Variable attrOf : N -> attr.
  Variable cmpA : datum -> datum -> Z.
  Variable rawSize : ekey K -> N.
  Hypothesis Hcols : columns_ok compareFn altOf attrOf cmpA.
  Variables (dflt : K) (useAlt : bool) (addTo attach : N) (curKeyOrdering : N -> bool).
  Hypothesis HaltOf : forall n, altOf n = altAt addTo useAlt n.
  Variable tuplesort : (row -> row -> Z) -> list row -> list row.
  Hypothesis Hsort : sorter tuplesort.
  Variable junk : qreq K -> row.
  Variable joinFn : joins datum.
  Hypothesis Hidem : forall f a, joinFn addTo = Some f -> f a a = a.
  Variables (canPre : N -> bool) (estimate : @istate K -> qreq K -> N) (sortEnts : list (entry datum) -> list nat).
  Hypothesis HsortEnts : forall ents, Permutation (sortEnts ents) (seq 0 (length ents)) /\
    StronglySorted (fun a b => 0 <= cmpEntries useAlt addTo cmpA (ent ents a) (ent ents b)) (sortEnts ents).
  Variables (visit : tbm -> list N) (iterate : list (N * pentry) -> list (N * pentry)) (tbmMax : N).
  Notation hrow := (@hrow K datum).
  Let HA := proj1 (proj2 Hcols).
  Variable table : list hrow.
  Hypothesis Hnd : NoDup (map r_tid table).
  Hypothesis Hoff : forall r, In r table -> off (r_tid r) <> 0%N.
  Variables (tight c : bool) (ix : @istate K) (G : @ghost (etup K)).
  Hypothesis HI : IInv compareFn altOf attrOf cmpA rawSize tight c ix G.
  Hypothesis Hagree : index_finds compareFn altOf cmpA addTo ix table.
  Variable ever : list hrow.
  Hypothesis Hever : forall r, In r table -> In r ever.
  Hypothesis Hfrom : keys_from compareFn addTo ix ever.
  Hypothesis Hjunk : forall q, junk_fine compareFn ix q (junk q).
  Notation findE := (findEntry addTo compareFn useAlt cmpA tuplesort junk ix).
  Notation cmpAt att := (compareRumItem (altAt addTo useAlt att) cmpA).
  Notation kspec := (@kspec K).
  Notation reqs ks := (flat_map kp_reqs ks).

  Definition foundRows (q : qreq K) : list (item datum) := match findE q with Some (f, _) => rows_found (joinFn (rq_att q)) f | None => [] end.
  Definition seen (r : hrow) (q : qreq K) : option (option datum) := present (foundRows q) (r_tid r).
  Definition valid_req (q : qreq K) : Prop := partial_ok compareFn (table_key compareFn addTo ever (rq_att q)) q /\ (isMany q = true -> no_null useAlt addTo table q).

  Lemma found_spec q : valid_req q -> exists f refind, findE q = Some (f, refind) /\ rows_found (joinFn (rq_att q)) f = foundRows q /\
    entry_good compareFn cmpA useAlt addTo joinFn table q f refind.
  Proof.
    intros [Hp Hn].
    destruct (entry_shows compareFn altOf attrOf cmpA rawSize Hcols useAlt addTo HaltOf tuplesort Hsort junk joinFn (fun _ => Hidem) table Hnd tight c ix G HI Hagree ever Hever Hfrom Hjunk q Hp Hn) as (f & refind & E & Hg).
    exists f, refind. split; [exact E|]. split; [|exact Hg]. unfold foundRows. rewrite E. reflexivity.
  Qed.
  Lemma found_sorted q : valid_req q -> ssorted (cmpAt (rq_att q)) (foundRows q).
  Proof. intro Hv. destruct (found_spec q Hv) as (f & refind & _ & <- & _ & Hs & _). exact Hs. Qed.
  Lemma found_row q y : valid_req q -> In y (foundRows q) -> exists r, In r table /\ ip y = r_tid r.
  Proof.
    intros Hv Hy. destruct (found_spec q Hv) as (f & refind & _ & Er & _ & _ & Ha & _). rewrite <- Er in Hy. destruct (Ha y Hy) as (z & Hz & E & _).
    destruct (asked_in compareFn addTo table q z Hz) as (r & e & Hr & _ & _ & _ & Et). exists r. split; [exact Hr|congruence].
  Qed.
  Lemma found_same q q' y y' a : valid_req q -> valid_req q' -> altAt addTo useAlt (rq_att q) = a -> altAt addTo useAlt (rq_att q') = a ->
    In y (foundRows q) -> In y' (foundRows q') -> ip y = ip y' -> compareRumItem a cmpA y y' = 0.
  Proof.
    intros Hv Hv' Ea Ea' Hy Hy' E. destruct a; [|unfold compareRumItem; apply cip_eq; exact E].
    assert (Eq : rq_att q = rq_att q').
    { unfold altAt in *. apply andb_true_iff in Ea as [_ Ea]. apply andb_true_iff in Ea' as [_ Ea']. apply N.eqb_eq in Ea, Ea'. congruence. }
    destruct (found_spec q Hv) as (f & refind & _ & Er & _ & _ & Ha & _). rewrite <- Er in Hy. destruct (Ha y Hy) as (z & Hz & Ez & Z0).
    destruct (found_spec q' Hv') as (f' & refind' & _ & Er' & _ & _ & Ha' & _). rewrite <- Er' in Hy'. destruct (Ha' y' Hy') as (z' & Hz' & Ez' & Z0').
    pose proof (same_place compareFn altOf attrOf cmpA Hcols useAlt addTo HaltOf joinFn (fun _ => Hidem) table Hnd q q' z z' Eq Hz Hz' ltac:(congruence)) as Hs.
    rewrite Ea in *. rewrite Ea' in *. pose proof (cri_total true cmpA HA) as CT.
    pose proof (cmp_eq_l _ CT _ _ y' Z0). pose proof (cmp_eq_l _ CT _ _ y' Hs). pose proof (cmp_sym_eq _ CT _ _ Z0'). lia.
  Qed.
  Lemma findE_many q f refind rs : findE q = Some (f, refind) -> f = FMany rs -> isMany q = true.
  Proof.
    unfold findEntry. destruct (isMany q); [reflexivity|]. destruct (eFindLeaf _ _ _) as [[b stk]|]; [|discriminate].
    destruct (get _ b) as [pg|]; [|discriminate]. destruct (et_find _ _ _) as [[|] off]; [|intros H; injection H as <- _; discriminate].
    destruct (nth_error _ _) as [t|]; [|discriminate]. destruct (t_data t) as [rs0|n]; [intros H; injection H as <- _; discriminate|].
    destruct (nth_error (i_trees ix) n) as [st|]; [|discriminate]. unfold treeFound. destruct (leftmostLeaf _ _ _); [|discriminate].
    destruct (leafBlocks _ _ _); [|discriminate]. intros H. injection H as <- _. discriminate.
  Qed.
  Notation findEs := (findEntries addTo compareFn useAlt cmpA tuplesort junk estimate ix).
  Lemma findEntries_spec qs : Forall valid_req qs -> exists es, findEs qs = Some es /\ map q_att es = map rq_att qs /\ rows joinFn es = map foundRows qs /\
    (forall e, In e es -> found_ok (cmpAt (q_att e)) (q_found e) (q_refind e)) /\
    (forall e rs, In e es -> q_found e = FMany rs -> exists q, In q qs /\ isMany q = true).
  Proof.
    induction qs as [|q qs IH]; intro H.
    - exists []. split; [reflexivity|]. split; [reflexivity|]. split; [reflexivity|]. split; [intros e []|intros e rs []].
    - apply Forall_cons_iff in H as [Hq H]. destruct (IH H) as (es & E & E1 & E2 & E3 & E4). destruct (found_spec q Hq) as (f & refind & Ef & Er & Hg).
      exists (mkQe (rq_att q) f (estimate ix q) refind :: es). cbn [findEntries]. rewrite Ef, E. split; [reflexivity|]. cbn [map q_att]. split; [rewrite E1; reflexivity|].
      split; [unfold rows in *; cbn [map q_att q_found]; rewrite E2, Er; reflexivity|]. split.
      + intros e [<-|He]; [cbn; apply Hg|auto].
      + intros e rs [<-|He] Hm.
        * exists q. split; [left; reflexivity|]. cbn in Hm. eapply findE_many; eauto.
        * destruct (E4 e rs He Hm) as (q' & H1 & H2). exists q'. split; [right; exact H1|exact H2].
  Qed.

  Definition key0 (s : kspec) : skey datum := kp_key s [].
  (** a condition, said of the rows found for its query keys *)
  Definition key_holds (s : kspec) (p : iptr) : Prop :=
    (exists q y, In q (kp_reqs s) /\ In y (foundRows q) /\ ip y = p) /\ says addTo (key0 s) (map (fun q => present (foundRows q) p) (kp_reqs s)).
  Definition key_recheck (s : kspec) (p : iptr) : Prop :=
    sk_every (key0 s) = false /\ snd (sk_cons (key0 s) (map (fun q => present (foundRows q) p) (kp_reqs s))) = true.
  (** what the fast scan needs *)
  Definition fast_keys (ks : list kspec) : Prop := exists s0, filter (fun s => negb (sk_order (key0 s))) ks = [s0] /\
    (forall s, In s ks -> kp_reqs s <> [] -> sk_att (key0 s) = sk_att (key0 s0)) /\
    (forall ents, length ents = length (kp_reqs s0) -> pre_sound (kp_key s0 ents)) /\
    let none := map (fun _ => None) (kp_reqs s0) in
    (((forall s, In s ks -> sk_order (key0 s) = true -> kp_reqs s = []) /\ ((exists q, In q (reqs ks) /\ isMany q = true) -> sk_every (key0 s0) = true \/ fst (sk_cons (key0 s0) none) = true)) \/
     (~ says addTo (key0 s0) none /\ forall q, In q (reqs ks) -> isMany q = false)).
  Definition scanOut (es : list (qentry (A := datum))) (ks : list kspec) : list (iptr * bool) :=
    let ents := map start es in
    let keys := numbered 0 ks in
    if isFast canPre ks
    then map (fun o => (ip (fst (fst o)), snd (fst o)))
           (scanFast useAlt addTo cmpA joinFn ents keys (sortEnts (startEntries useAlt addTo cmpA joinFn ents)))
    else map (fun o => (ip (fst (fst o)), snd (fst o))) (scanRegular useAlt addTo cmpA joinFn visit iterate tbmMax ents keys).

  (** the same rows with the state insertScanItem reads *)
  Definition scanViews (es : list (qentry (A := datum))) (ks : list kspec) : list (item datum * bool * list (entry datum) * list (skey datum * kst datum)) :=
    let ents := map start es in
    let keys := numbered 0 ks in
    if isFast canPre ks
    then map (fun o => (fst (fst o), snd (fst o), f_ents (snd o), f_keys (snd o)))
           (scanFast useAlt addTo cmpA joinFn ents keys (sortEnts (startEntries useAlt addTo cmpA joinFn ents)))
    else map (fun o => (fst (fst o), snd (fst o), s_ents (snd o), s_keys (snd o)))
           (scanRegular useAlt addTo cmpA joinFn visit iterate tbmMax ents keys).
  (** orderings see the truth unless a recheck is asked for; conditions remember the attached value *)
  Definition view_ok (ks : list kspec) (v : item datum * bool * list (entry datum) * list (skey datum * kst datum)) : Prop :=
    let '(x, re, ents, keys) := v in
    map fst keys = numbered 0 ks /\
    (re = false -> forall k, In k (numbered 0 ks) -> sk_order k = true -> checkAt ents k (ip x) = sees (map foundRows (reqs ks)) k (ip x)) /\
    (forall k st, In (k, st) keys -> sk_order k = false -> sk_att k = addTo -> ks_outer st = newOuter addTo k (sees (map foundRows (reqs ks)) k (ip x)) None).
  Lemma views_out es ks : scanOut es ks = map (fun v => (ip (fst (fst (fst v))), snd (fst (fst v)))) (scanViews es ks).
  Proof. unfold scanOut, scanViews. destruct (isFast canPre ks); rewrite map_map; apply map_ext; intros [[x re] st]; reflexivity. Qed.

  Lemma says_const s ents v : ks_const s -> says addTo (kp_key s ents) v <-> says addTo (key0 s) v.
  Proof. intro Hc. destruct (Hc ents) as (E1 & E2 & E3 & E4 & E5 & E6). unfold says, key0. rewrite E1, E3, E4, E5. reflexivity. Qed.
  Lemma numbered_filter (ks : list kspec) : Forall ks_const ks -> forall n, filter (fun k => negb (sk_order k)) (numbered n ks) = [] <-> filter (fun s => negb (sk_order (key0 s))) ks = [].
  Proof.
    induction 1 as [|s ks Hs _ IH]; intro n; [cbn; tauto|]. cbn [numbered filter]. destruct (Hs (seq n (length (kp_reqs s)))) as (_ & E & _). rewrite E. fold (key0 s).
    destruct (sk_order (key0 s)); cbn [negb]; [apply IH|]. split; discriminate.
  Qed.
  Lemma numbered_one (ks : list kspec) s0 : Forall ks_const ks -> forall n, filter (fun s => negb (sk_order (key0 s))) ks = [s0] ->
    exists l1 l2, ks = l1 ++ s0 :: l2 /\ filter (fun k => negb (sk_order k)) (numbered n ks) = [kp_key s0 (seq (n + length (reqs l1)) (length (kp_reqs s0)))].
  Proof.
    induction 1 as [|s ks Hs Hks IH]; intros n E; [discriminate|]. cbn [numbered filter] in *. destruct (Hs (seq n (length (kp_reqs s)))) as (_ & Eo & _). rewrite Eo. fold (key0 s).
    destruct (sk_order (key0 s)); cbn [negb] in *.
    - destruct (IH (n + length (kp_reqs s))%nat E) as (l1 & l2 & -> & E2). exists (s :: l1), l2. split; [reflexivity|]. rewrite E2. cbn [flat_map]. rewrite app_length, Nat.add_assoc. reflexivity.
    - injection E as -> E. exists [], ks. split; [reflexivity|]. apply (numbered_filter ks Hks (n + length (kp_reqs s0))) in E. rewrite E. cbn. rewrite Nat.add_0_r. reflexivity.
  Qed.

  Theorem scan_keys (ks : list kspec) a es : Forall ks_ok ks -> Forall ks_const ks -> Forall valid_req (reqs ks) ->
    (exists s, In s ks /\ sk_order (key0 s) = false) ->
    (forall s, In s ks -> altAt addTo useAlt (sk_att (key0 s)) = a) ->
    (isFast canPre ks = true -> fast_keys ks) ->
    findEs (reqs ks) = Some es ->
    let out := scanOut es ks in
    NoDup (map fst out) /\
    (forall p, In p (map fst out) <-> forall s, In s ks -> sk_order (key0 s) = false -> key_holds s p) /\
    (forall p re, In (p, re) out -> (re = true <-> exists s, In s ks /\ sk_order (key0 s) = false /\ key_recheck s p)) /\
    Forall (view_ok ks) (scanViews es ks).
  Proof.
    intros Hok Hco Hv (s1 & Hs1 & Ho1) Ha Hfast Hes. cbv zeta.
    destruct (findEntries_spec (reqs ks) Hv) as (es' & E & E1 & E2 & E3 & E4). rewrite Hes in E. apply Some_inj in E. subst es'.
    pose proof (query_ok_numbered ks es Hok E1) as HQ.
    rewrite Forall_forall in Hok, Hco, Hv.
    assert (Hkey : forall k, In k (numbered 0 ks) -> exists l1 s l2, ks = l1 ++ s :: l2 /\ In s ks /\ k = kp_key s (seq (length (reqs l1)) (length (kp_reqs s)))).
    { intros k Hk. apply numbered_in in Hk as (l1 & s & l2 & Ek & ->). exists l1, s, l2. split; [exact Ek|]. split; [rewrite Ek; apply in_app_iff; right; left; reflexivity|reflexivity]. }
    assert (Hkey' : forall s, In s ks -> exists l1 l2, ks = l1 ++ s :: l2 /\ In (kp_key s (seq (length (reqs l1)) (length (kp_reqs s)))) (numbered 0 ks)).
    { intros s Hs. apply in_split in Hs as (l1 & l2 & Ek). exists l1, l2. split; [exact Ek|]. apply numbered_in. exists l1, s, l2. split; [exact Ek|reflexivity]. }
    assert (Hsr : forall s q, In s ks -> In q (kp_reqs s) -> In q (reqs ks) /\ rq_att q = sk_att (key0 s)).
    { intros s q Hs Hq. split; [apply in_flat_map; eauto|]. apply (Hok s Hs []). exact Hq. }
    assert (Hqs : forall q, In q (reqs ks) -> altAt addTo useAlt (rq_att q) = a).
    { intros q Hq. apply in_flat_map in Hq as (s & Hs & Hq). destruct (Hsr s q Hs Hq) as [_ ->]. apply Ha. exact Hs. }
    assert (Hrows : rows_ok (compareRumItem a cmpA) (rows joinFn es)).
    { rewrite E2. split.
      - intros C HC. apply in_map_iff in HC as (q & <- & Hq). split.
        + rewrite <- (Hqs q Hq). apply found_sorted. auto.
        + intros y Hy. destruct (found_row q y (Hv q Hq) Hy) as (r & Hr & ->). auto.
      - intros C C' y y' HC HC' Hy Hy' E. apply in_map_iff in HC as (q & <- & Hq). apply in_map_iff in HC' as (q' & <- & Hq').
        apply (found_same q q'); auto. }
    assert (Hqe : forall e, In e es -> altAt addTo useAlt (q_att e) = a).
    { intros e He. apply (in_map q_att) in He. rewrite E1 in He. apply in_map_iff in He as (q & <- & Hq). auto. }
    assert (Hfo : forall e, In e es -> found_ok (compareRumItem a cmpA) (q_found e) (q_refind e)).
    { intros e He. rewrite <- (Hqe e He). auto. }
    assert (Hka : forall k, In k (numbered 0 ks) -> altAt addTo useAlt (sk_att k) = a).
    { intros k Hk. destruct (Hkey k Hk) as (l1 & s & l2 & _ & Hs & ->). destruct (Hco s Hs (seq (length (reqs l1)) (length (kp_reqs s)))) as (-> & _). apply Ha. exact Hs. }
    assert (Hsearch : exists k, In k (numbered 0 ks) /\ sk_order k = false).
    { destruct (Hkey' s1 Hs1) as (l1 & l2 & _ & Hin). eexists. split; [exact Hin|]. destruct (Hco s1 Hs1 (seq (length (reqs l1)) (length (kp_reqs s1)))) as (_ & -> & _). exact Ho1. }
    assert (Hscan : isScanWithAltOrderKeys useAlt addTo (numbered 0 ks) = false).
    { unfold isScanWithAltOrderKeys. apply andb_false_iff. destruct a.
      - left. apply andb_false_iff. right. destruct (existsb _ _) eqn:Ex; [|reflexivity]. apply existsb_exists in Ex as (k & Hk & Ex).
        specialize (Hka k Hk). unfold altAt in Hka. rewrite N.eqb_sym, Hka in Ex. discriminate.
      - right. destruct (existsb _ _) eqn:Ex; [|reflexivity]. apply existsb_exists in Ex as (k & Hk & Ex).
        specialize (Hka k Hk). unfold altAt in Hka. rewrite N.eqb_sym, Hka in Ex. discriminate. }
    (* the regular scan *)
    destruct (scanRegular_spec useAlt addTo cmpA HA joinFn visit iterate tbmMax es (numbered 0 ks) a Hscan HQ Hka Hqe Hrows Hfo Hsearch) as (Hs & Hp & Hr).
    set (sorted := sortEnts (startEntries useAlt addTo cmpA joinFn (map start es))).
    set (started := startEntries useAlt addTo cmpA joinFn (map start es)).
    assert (HF : isFast canPre ks = true -> exists att0 k0,
      (forall k, In k (numbered 0 ks) -> sk_ents k <> [] -> sk_att k = att0) /\
      (forall k, In k (numbered 0 ks) -> ScanEntry.altOf useAlt addTo (sk_att k) = ScanEntry.altOf useAlt addTo att0) /\
      rows_ok (ScanEntry.cmpAt useAlt addTo cmpA att0) (rows joinFn es) /\
      (forall q, In q es -> found_ok (ScanEntry.cmpAt useAlt addTo cmpA att0) (q_found q) (q_refind q)) /\
      filter (fun k => negb (sk_order k)) (numbered 0 ks) = [k0] /\ pre_sound k0 /\
      (forall q rs, In q es -> q_found q = FMany rs -> sk_every k0 = true \/ fst (sk_cons k0 (map (fun _ => None) (sk_ents k0))) = true) /\
      ((forall q y, In q es -> In y (rows_found (joinFn (q_att q)) (q_found q)) -> exists n y', In n (sk_ents k0) /\ In y' (nth n (rows joinFn es) []) /\ ip y' = ip y) \/
        ~ says addTo k0 (map (fun _ => None) (sk_ents k0))) /\
      Permutation sorted (seq 0 (length es)) /\
      StronglySorted (fun a b => 0 <= cmpEntries useAlt addTo cmpA (ent started a) (ent started b)) sorted).
    { intro Ef. specialize (Hfast Ef). clear Hs Hp Hr.
      destruct Hfast as (s0 & Hone & Hatt & Hpre & Hcase).
      destruct (numbered_one ks s0 (proj2 (Forall_forall _ _) Hco) 0 Hone) as (l1 & l2 & Eks & Hf). cbn [Nat.add] in Hf.
      set (k0 := kp_key s0 (seq (length (reqs l1)) (length (kp_reqs s0)))) in *.
      assert (Hs0 : In s0 ks) by (rewrite Eks; apply in_app_iff; right; left; reflexivity).
      destruct (Hco s0 Hs0 (seq (length (reqs l1)) (length (kp_reqs s0)))) as (C1 & C2 & C3 & C4 & C5 & C6). fold k0 in C1, C2, C3, C4, C5, C6.
      assert (Eents : sk_ents k0 = seq (length (reqs l1)) (length (kp_reqs s0))) by (apply (Hok s0 Hs0)).
      assert (Enone : map (fun _ : nat => @None (option datum)) (sk_ents k0) = map (fun _ => None) (kp_reqs s0)).
      { rewrite Eents. apply (nth_ext _ _ None None); [rewrite !map_length, seq_length; reflexivity|].
        intros i _. destruct (nth_in_or_default i (map (fun _ : nat => @None (option datum)) (seq (length (reqs l1)) (length (kp_reqs s0)))) None) as [Hi| ->].
        - apply in_map_iff in Hi as (? & <- & _). destruct (nth_in_or_default i (map (fun _ : qreq K => @None (option datum)) (kp_reqs s0)) None) as [Hi'| ->]; [|reflexivity].
          apply in_map_iff in Hi' as (? & <- & _). reflexivity.
        - destruct (nth_in_or_default i (map (fun _ : qreq K => @None (option datum)) (kp_reqs s0)) None) as [Hi'| ->]; [|reflexivity].
          apply in_map_iff in Hi' as (? & <- & _). reflexivity. }
      assert (Hcmp0 : ScanEntry.cmpAt useAlt addTo cmpA (sk_att (key0 s0)) = compareRumItem a cmpA).
      { unfold ScanEntry.cmpAt, ScanEntry.altOf. pose proof (Ha s0 Hs0) as H. unfold altAt in H. rewrite H. reflexivity. }
      exists (sk_att (key0 s0)), k0. repeat match goal with |- _ /\ _ => split end.
      - intros k Hk Hne. destruct (Hkey k Hk) as (m1 & s & m2 & _ & Hs & ->). destruct (Hco s Hs (seq (length (reqs m1)) (length (kp_reqs s)))) as (-> & _). apply Hatt; [exact Hs|].
        intro Hz. apply Hne. rewrite (proj1 (Hok s Hs _)), Hz. reflexivity.
      - intros k Hk. pose proof (Hka k Hk) as H1. pose proof (Ha s0 Hs0) as H2. unfold altAt in H1, H2. unfold ScanEntry.altOf. rewrite H1, H2. reflexivity.
      - rewrite Hcmp0. exact Hrows.
      - rewrite Hcmp0. exact Hfo.
      - exact Hf.
      - apply Hpre. apply seq_length.
      - intros e rs He Hm. rewrite Enone, C3, C4. destruct Hcase as [[_ Hc]|[_ Hc]].
        + apply Hc. destruct (E4 e rs He Hm) as (q & H1 & H2). eauto.
        + exfalso. destruct (E4 e rs He Hm) as (q & H1 & H2). rewrite (Hc q H1) in H2. discriminate.
      - rewrite Enone. destruct Hcase as [[Hsing _]|[Hno _]].
        + left. intros e y He Hy.
          apply In_nth_error in He as [n Hn]. destruct HQ as [_ Q2]. destruct (Q2 n e Hn) as (k & Hk & Hkn).
          exists n, y. assert (k = k0) as ->.
          { assert (Ho : sk_order k = false).
            { destruct (Hkey k Hk) as (m1 & s & m2 & Em & Hs' & Ekk). destruct (sk_order k) eqn:Eo; [|reflexivity]. exfalso.
              destruct (Hco s Hs' (seq (length (reqs m1)) (length (kp_reqs s)))) as (_ & D2 & _). rewrite <- Ekk, Eo in D2.
              rewrite Ekk in Hkn. rewrite (proj1 (Hok s Hs' _)), (Hsing s Hs' (eq_sym D2)) in Hkn. destruct Hkn. }
            assert (Hin : In k (filter (fun k => negb (sk_order k)) (numbered 0 ks))) by (apply filter_In; split; [exact Hk|rewrite Ho; reflexivity]).
            rewrite Hf in Hin. destruct Hin as [<-|[]]. reflexivity. }
          split; [exact Hkn|]. split; [|reflexivity]. unfold rows. erewrite nth_error_nth; [exact Hy|]. rewrite nth_error_map, Hn. reflexivity.
        + right. unfold k0. rewrite (says_const s0 _ _ (Hco s0 Hs0)). exact Hno.
      - destruct (HsortEnts (startEntries useAlt addTo cmpA joinFn (map start es))) as [P _]. unfold startEntries in P at 2. rewrite !map_length in P. exact P.
      - apply (HsortEnts (startEntries useAlt addTo cmpA joinFn (map start es))). }
    assert (Hout : scanOut es ks = map (fun o => (ip (fst (fst o)), snd (fst o))) (scanRegular useAlt addTo cmpA joinFn visit iterate tbmMax (map start es) (numbered 0 ks))).
    { unfold scanOut. destruct (isFast canPre ks) eqn:Ef; [|reflexivity]. destruct (HF eq_refl) as (att0 & k0 & F1 & F2 & F3 & F4 & F5 & F6 & F7 & F8 & F9 & F10).
      exact (fast_equals_regular useAlt addTo cmpA HA joinFn visit iterate tbmMax es (numbered 0 ks) _ att0 k0 HQ F1 F2 F3 F4 F5 F6 F7 F8 F9 F10). }
    assert (Hview : Forall (view_ok ks) (scanViews es ks)).
    { apply Forall_forall. intros v Hv'. unfold scanViews in Hv'. destruct (isFast canPre ks) eqn:Ef.
      - destruct (HF eq_refl) as (att0 & k0 & F1 & F2 & F3 & F4 & F5 & F6 & F7 & F8 & F9 & F10).
        assert (Hqa : forall q, In q es -> q_att q = att0).
        { intros q Iq. destruct HQ as [Q1 Q2]. destruct (In_nth_error _ _ Iq) as (n & E). destruct (Q2 n q E) as (k & K1 & K2).
          destruct (Q1 k n K1 K2) as (q' & E' & Eq'). rewrite E in E'. apply Some_inj in E'. subst q'. rewrite Eq'. apply F1; [exact K1|]. intro X. rewrite X in K2. destruct K2. }
        destruct (scanFast_spec useAlt addTo cmpA HA joinFn es (numbered 0 ks) _ att0 k0 HQ Hqa F3 F4 F5 F6 F7 F9 F10) as (_ & _ & Hx).
        apply in_map_iff in Hv' as ([[x re] st] & <- & Hin). cbn [fst snd view_ok]. destruct (Hx x re st Hin) as (_ & _ & Hc).
        destruct (scanFast_outer _ _ _ _ _ _ _ _ _ Hin) as [H1 H2].
        assert (H3 : map fst (f_keys st) = numbered 0 ks) by (rewrite H1; unfold startFast; cbn [f_keys]; rewrite map_map; cbn [fst]; apply map_id).
        split; [exact H3|]. rewrite <- E2. split; [intros _ k Hk _; apply Hc; exact Hk|].
        intros k st' Hk Ho Ea. rewrite (H2 k st' Hk Ho Ea), Hc; [reflexivity|]. rewrite <- H3. apply (in_map fst) in Hk. exact Hk.
      - apply in_map_iff in Hv' as ([[x re] st] & <- & Hin). cbn [fst snd view_ok]. destruct (Hr x re st Hin) as (_ & _ & H1 & H2 & H3).
        rewrite <- E2. split; [exact H2|]. split; [exact H1|exact H3]. }
    rewrite Hout. rewrite map_map. cbn [fst].
    assert (Hmat : forall p k, In k (numbered 0 ks) -> exists s, In s ks /\ sk_order k = sk_order (key0 s) /\ (matches addTo (rows joinFn es) k p <-> key_holds s p) /\ (asks_recheck (rows joinFn es) k p <-> key_recheck s p)).
    { intros p k Hk. destruct (Hkey k Hk) as (l1 & s & l2 & Ek & Hs' & ->). exists s. split; [exact Hs'|].
      destruct (Hco s Hs' (seq (length (reqs l1)) (length (kp_reqs s)))) as (C1 & C2 & C3 & C4 & C5 & C6). split; [exact C2|].
      unfold matches, key_holds, asks_recheck, key_recheck. rewrite E2. rewrite Ek. rewrite (sees_key foundRows l1 s l2 _ p (Hok s Hs') eq_refl).
      rewrite (ents_rows foundRows l1 s l2 _ p (Hok s Hs') eq_refl). rewrite (says_const s _ _ (Hco s Hs')). rewrite C3, C4. split; reflexivity. }
    assert (Hmat' : forall p s, In s ks -> exists k, In k (numbered 0 ks) /\ sk_order k = sk_order (key0 s) /\ (matches addTo (rows joinFn es) k p <-> key_holds s p) /\ (asks_recheck (rows joinFn es) k p <-> key_recheck s p)).
    { intros p s Hs'. destruct (Hkey' s Hs') as (l1 & l2 & Ek & Hin). eexists. split; [exact Hin|].
      destruct (Hco s Hs' (seq (length (reqs l1)) (length (kp_reqs s)))) as (C1 & C2 & C3 & C4 & C5 & C6). split; [exact C2|].
      unfold matches, key_holds, asks_recheck, key_recheck. rewrite E2. rewrite Ek. rewrite (sees_key foundRows l1 s l2 _ p (Hok s Hs') eq_refl).
      rewrite (ents_rows foundRows l1 s l2 _ p (Hok s Hs') eq_refl). rewrite (says_const s _ _ (Hco s Hs')). rewrite C3, C4. split; reflexivity. }
    set (out := scanRegular _ _ _ _ _ _ _ _ _) in *. clearbody out. clear Hout.
    assert (Hgoal : forall A B C D : Prop, D -> A /\ B /\ C -> A /\ B /\ C /\ D) by tauto. apply Hgoal; [exact Hview|]. clear Hgoal Hview HF.
    assert (Hitem : forall o, In o out -> exists q, In q (reqs ks) /\ In (fst (fst o)) (foundRows q)).
    { intros [[x re] st] Ho. destruct (Hr x re st Ho) as ((e & He & Hx) & _). cbn [fst].
      apply (in_map (fun q => rows_found (joinFn (q_att q)) (q_found q))) in He. fold (rows joinFn es) in He. rewrite E2 in He. apply in_map_iff in He as (q & Eq & Hq).
      exists q. split; [exact Hq|]. rewrite Eq. exact Hx. }
    split; [|split].
    - clear Hp Hr. induction out as [|o out IH]; [constructor|]. cbn [map] in *. apply ssorted_inv in Hs as [Hs Hall]. constructor; [|apply IH; auto; intros; apply Hitem; right; auto].
      intro Hin. apply in_map_iff in Hin as (o' & Eo & Ho'). rewrite Forall_map, Forall_forall in Hall. specialize (Hall o' Ho').
      destruct (Hitem o (or_introl eq_refl)) as (q & Hq & Hy). destruct (Hitem o' (or_intror Ho')) as (q' & Hq' & Hy').
      rewrite (found_same q q' _ _ a) in Hall; auto. lia.
    - intro p. rewrite in_map_iff. split.
      + intros (o & Eo & Ho) s Hs' Hord. destruct (Hmat' p s Hs') as (k & Hk & Eord & Hm & _). apply Hm. apply (proj1 (Hp p)); [exists o; auto|exact Hk|congruence].
      + intro H. destruct (proj2 (Hp p)) as (o & Ho & Eo); [|exists o; auto]. intros k Hk Hord. destruct (Hmat p k Hk) as (s & Hs' & Eord & Hm & _). apply Hm. apply H; [exact Hs'|congruence].
    - intros p re Hin. apply in_map_iff in Hin as ([[x re'] st] & E & Ho). cbn [fst snd] in E. injection E as <- <-.
      destruct (Hr x re' st Ho) as (_ & Hre & _). rewrite Hre. split.
      + intros (k & Hk & Hord & Hask). destruct (Hmat (ip x) k Hk) as (s & Hs' & Eord & _ & Hm). exists s. split; [exact Hs'|]. split; [congruence|]. apply Hm. exact Hask.
      + intros (s & Hs' & Hord & Hask). destruct (Hmat' (ip x) s Hs') as (k & Hk & Eord & _ & Hm). exists k. split; [exact Hk|]. split; [congruence|]. apply Hm. exact Hask.
  Qed.

  Lemma present_some (C : list (item datum)) p : present C p <> None <-> exists y, In y C /\ ip y = p.
  Proof.
    unfold present. split.
    - destruct (find _ C) as [y|] eqn:E; [|intro H; exfalso; apply H; reflexivity]. intros _. apply find_some in E as [H1 H2]. exists y. split; [exact H1|]. apply EntryFound.tid_eqb_eq. exact H2.
    - intros (y & Hy & Ep). destruct (find _ C) eqn:E; [discriminate|]. exfalso. apply (find_none _ _ E) in Hy. apply EntryFound.tid_eqb_eq in Ep. congruence.
  Qed.
  Lemma seen_shows q r : valid_req q -> In r table -> shows (joinFn (rq_att q)) (infos compareFn addTo r q) (seen r q).
  Proof. intros Hv Hr. destruct (found_spec q Hv) as (f & refind & _ & Er & _ & _ & _ & Hs). unfold seen. rewrite <- Er. apply Hs. exact Hr. Qed.
  (** on the column it is attached to, a query key shows the attached value *)
  Lemma seen_attach q r : valid_req q -> In r table -> rq_att q = addTo -> seen r q = None \/ seen r q = Some (r_attach r).
  Proof.
    intros Hv Hr Ea. destruct (seen_shows q r Hv Hr) as [[_ ->]|(a & t & P & ->)]; [left; reflexivity|right].
    assert (Hall : forall x, In x (a :: t) -> r_attach r = x).
    { intros x Hx. eapply Permutation_in in Hx; [|symmetry; exact P]. unfold infos in Hx. apply in_map_iff in Hx as (e & <- & He). apply filter_In in He as [He Has].
      apply (asks_att compareFn) in Has. apply row_pairs_facts in He as [_ He]. symmetry. apply He. congruence. }
    assert (E0 : r_attach r = a) by (apply Hall; left; reflexivity). rewrite <- E0 in *. f_equal. apply fold_same.
    - intros x _. cbn [joinAdd]. rewrite Ea. pose proof Hidem as Hd. destruct (joinFn addTo) as [f|]; [|reflexivity]. rewrite (Hd f x eq_refl). reflexivity.
    - apply Forall_forall. intros x Hx. apply Hall. right. exact Hx.
  Qed.

  Notation requests := (requests dflt).
  Notation searchKey := (searchKey dflt).
  Notation holds := (holds dflt).
  Lemma requests_att cl q : In q (requests cl) -> rq_att q = cl_att cl.
  Proof.
    unfold IndexScan.requests, hidden. intro H. apply in_app_iff in H as [H|H]; [apply in_map_iff in H as (v & <- & _); reflexivity|].
    destruct (modeOf cl =? 1); [destruct H as [<-|[]]; reflexivity|]. destruct (modeOf cl =? 2); [destruct H as [<-|[]]; reflexivity|destruct H].
  Qed.
  Lemma user_part {T} (g : qreq K -> T) cl : firstn (length (cl_vals cl)) (map g (requests cl)) = map (fun v => g (reqOf (cl_att cl) v)) (cl_vals cl).
  Proof.
    unfold IndexScan.requests. rewrite map_app, map_map. rewrite firstn_app, map_length, Nat.sub_diag. cbn [firstn]. rewrite app_nil_r.
    rewrite <- (map_length (fun x => g (reqOf (cl_att cl) x)) (cl_vals cl)). apply firstn_all.
  Qed.
  (** a condition without conditions on the attached column *)
  Lemma key_plain ws cl r : cl_isnull cl = false -> key_holds (searchKey None ws cl) (r_tid r) <-> holds (seen r) cl.
  Proof.
    intro Hn. unfold key_holds, QuerySpec.holds, says. cbn [IndexScan.searchKey kp_reqs key0 kp_key sk_every sk_cons sk_att sk_subs]. unfold userCons. rewrite user_part. fold (seen r).
    split.
    - intros ((q & y & Hq & Hy & Ep) & ([H|H] & _)); [discriminate|]. split; [exact Hn|]. split; [|exact H]. exists q. split; [exact Hq|]. apply present_some. eauto.
    - intros (_ & (q & Hq & Hne) & H). split; [|split; [right; exact H|intros _ subs E; discriminate]]. apply present_some in Hne as (y & Hy & Ep). exists q, y. auto.
  Qed.
  Lemma key_subs subs ws cl r : In r table -> (forall q, In q (requests cl) -> valid_req q) -> cl_att cl = addTo -> cl_isnull cl = false ->
    key_holds (searchKey (Some subs) ws cl) (r_tid r) <-> holds (seen r) cl /\ exists a, r_attach r = Some a /\ Forall (fun f => f a = 0) subs.
  Proof.
    intros Hr Hv Ea Hn. rewrite <- (key_plain ws cl r Hn). unfold key_holds, says. cbn [IndexScan.searchKey kp_reqs key0 kp_key sk_every sk_cons sk_att sk_subs].
    assert (Hsub : (exists q y, In q (requests cl) /\ In y (foundRows q) /\ ip y = r_tid r) ->
      ((exists a, attached_seen (map (seen r) (requests cl)) a /\ Forall (fun f => f a = 0) subs) <-> exists a, r_attach r = Some a /\ Forall (fun f => f a = 0) subs)).
    { intros (q0 & y0 & Hq0 & Hy0 & Ep0).
      assert (Hval : forall o, In o (map (seen r) (requests cl)) -> o = None \/ o = Some (r_attach r)).
      { intros o Ho. apply in_map_iff in Ho as (q & <- & Hq). apply seen_attach; [apply Hv; exact Hq|exact Hr|]. rewrite (requests_att cl q Hq). exact Ea. }
      split.
      - intros (a & (v1 & v2 & E & _) & Hf). exists a. split; [|exact Hf]. destruct (Hval (Some (Some a))) as [H|H]; [rewrite E; apply in_app_iff; right; left; reflexivity|discriminate|]. injection H as ->. reflexivity.
      - intros (a & Era & Hf). exists a. split; [|exact Hf].
        assert (Hin : In (Some (Some a)) (map (seen r) (requests cl))).
        { assert (Hs : seen r q0 <> None) by (apply present_some; eauto). destruct (Hval (seen r q0)) as [H|H]; [apply in_map; exact Hq0|contradiction|].
          rewrite <- Era, <- H. apply in_map. exact Hq0. }
        rewrite Era in Hval. revert Hval Hin. generalize (map (seen r) (requests cl)). induction l as [|o l IH]; intros Hval Hin; [destruct Hin|].
        destruct (Hval o (or_introl eq_refl)) as [-> | ->].
        + destruct Hin as [Hin|Hin]; [discriminate|]. destruct IH as (v1 & v2 & E & Hv1); [intros; apply Hval; right; auto|exact Hin|].
          exists (None :: v1), v2. split; [rewrite E; reflexivity|]. constructor; auto.
        + exists [], l. split; [reflexivity|constructor]. }
    fold (seen r). split.
    - intros (H1 & H2 & H3). split; [split; [exact H1|split; [exact H2|intros _ subs' E; discriminate]]|]. apply (Hsub H1). apply H3; [exact Ea|reflexivity].
    - intros ((H1 & H2 & _) & H3). split; [exact H1|]. split; [exact H2|]. intros _ subs' E. injection E as <-. apply (Hsub H1). exact H3.
  Qed.

  Notation kept := (kept addTo attach).
  Notation condKeys := (condKeys dflt addTo attach).
  Notation orderKey := (orderKey dflt addTo attach curKeyOrdering).
  Notation bare := (bare attach curKeyOrdering).
  Notation movesOn := (movesOn addTo attach).
  Notation query_keys := (query_keys dflt addTo attach curKeyOrdering).
  Lemma kept_moves (conds : list (clause K)) : movesOn conds = true -> kept conds = filter (fun c => negb (onAttach attach c)) conds.
  Proof.
    unfold IndexScan.movesOn, QuerySpec.kept. intro H. apply andb_true_iff in H as [H _]. unfold onAddTo in H. rewrite H. apply filter_ext. intro cl. rewrite andb_true_r. reflexivity.
  Qed.
  Lemma kept_stays (conds : list (clause K)) : movesOn conds = false -> kept conds = conds.
  Proof.
    unfold IndexScan.movesOn, QuerySpec.kept. intro H. apply filter_all. intros cl Hcl. apply negb_true_iff. apply andb_false_iff in H as [H|H].
    - unfold onAddTo in H. rewrite H. apply andb_false_r.
    - destruct (cl_att cl =? attach)%N eqn:E; [|reflexivity]. exfalso. assert (existsb (onAttach attach) conds = true) as X by (apply existsb_exists; exists cl; auto). congruence.
  Qed.
  Lemma firstAddTo_in subs ws (conds : list (clause K)) s : In s (firstAddTo dflt addTo subs ws conds) -> exists cl, In cl conds /\ (s = searchKey None ws cl \/ s = searchKey subs ws cl /\ cl_att cl = addTo).
  Proof.
    induction conds as [|cl conds IH]; intro H; [destruct H|]. cbn [firstAddTo] in H. destruct (onAddTo addTo cl) eqn:E.
    - destruct H as [<-|H]; [exists cl; split; [left; reflexivity|right; split; [reflexivity|apply N.eqb_eq; exact E]]|].
      apply in_map_iff in H as (c' & <- & Hc'). exists c'. split; [right; exact Hc'|left; reflexivity].
    - destruct H as [<-|H]; [exists cl; split; [left; reflexivity|left; reflexivity]|]. destruct (IH H) as (c' & Hc' & H'). exists c'. split; [right; exact Hc'|exact H'].
  Qed.
  Lemma firstAddTo_all subs ws (conds : list (clause K)) cl : In cl conds -> exists s, In s (firstAddTo dflt addTo subs ws conds) /\ (s = searchKey None ws cl \/ s = searchKey subs ws cl /\ cl_att cl = addTo).
  Proof.
    induction conds as [|c' conds IH]; intro H; [destruct H|]. cbn [firstAddTo]. destruct (onAddTo addTo c') eqn:E.
    - destruct H as [<-|H]; [eexists; split; [left; reflexivity|right; split; [reflexivity|apply N.eqb_eq; exact E]]|]. eexists. split; [right; apply in_map; exact H|left; reflexivity].
    - destruct H as [<-|H]; [eexists; split; [left; reflexivity|left; reflexivity]|]. destruct (IH H) as (s & Hs & H'). exists s. split; [right; exact Hs|exact H'].
  Qed.
  Lemma firstAddTo_one subs ws (conds : list (clause K)) : (exists cl, In cl conds /\ cl_att cl = addTo) -> exists cl, In cl conds /\ cl_att cl = addTo /\ In (searchKey subs ws cl) (firstAddTo dflt addTo subs ws conds).
  Proof.
    induction conds as [|c' conds IH]; intros (cl & H & E); [destruct H|]. cbn [firstAddTo]. destruct (onAddTo addTo c') eqn:E'.
    - exists c'. split; [left; reflexivity|]. split; [apply N.eqb_eq; exact E'|left; reflexivity].
    - destruct H as [<-|H]; [unfold onAddTo in E'; rewrite E, N.eqb_refl in E'; discriminate|]. destruct IH as (c2 & H1 & H2 & H3); [eauto|]. exists c2. split; [right; exact H1|]. split; [exact H2|right; exact H3].
  Qed.
  Lemma firstAddTo_reqs subs ws (conds : list (clause K)) : reqs (firstAddTo dflt addTo subs ws conds) = flat_map requests conds.
  Proof.
    assert (E : forall l, reqs (map (searchKey None ws) l) = flat_map requests l) by (induction l as [|x l IH]; [reflexivity|]; cbn [map flat_map]; rewrite IH; reflexivity).
    induction conds as [|cl conds IH]; [reflexivity|]. cbn [firstAddTo]. destruct (onAddTo addTo cl); cbn [flat_map]; [rewrite E|rewrite IH]; reflexivity.
  Qed.
  Lemma condKeys_in ws (conds : list (clause K)) s : In s (condKeys ws conds) -> exists cl, In cl (kept conds) /\
    (s = searchKey None ws cl \/ s = searchKey (Some (subsOf attach conds)) ws cl /\ cl_att cl = addTo /\ movesOn conds = true).
  Proof.
    unfold IndexScan.condKeys. destruct (movesOn conds) eqn:E.
    - rewrite (kept_moves _ E). intro H. apply firstAddTo_in in H as (cl & Hc & [H|[H1 H2]]); exists cl; auto.
    - rewrite (kept_stays _ E). intro H. apply in_map_iff in H as (cl & <- & Hc). exists cl. auto.
  Qed.
  Lemma condKeys_all ws (conds : list (clause K)) cl : In cl (kept conds) -> exists s, In s (condKeys ws conds) /\
    (s = searchKey None ws cl \/ s = searchKey (Some (subsOf attach conds)) ws cl /\ cl_att cl = addTo).
  Proof.
    unfold IndexScan.condKeys. destruct (movesOn conds) eqn:E.
    - rewrite (kept_moves _ E). intro H. apply firstAddTo_all. exact H.
    - rewrite (kept_stays _ E). intro H. eexists. split; [apply in_map; exact H|left; reflexivity].
  Qed.
  Lemma condKeys_reqs ws (conds : list (clause K)) : reqs (condKeys ws conds) = flat_map requests (kept conds).
  Proof.
    unfold IndexScan.condKeys. destruct (movesOn conds) eqn:E.
    - rewrite (kept_moves _ E). apply firstAddTo_reqs.
    - rewrite (kept_stays _ E). induction conds as [|x l IH]; [reflexivity|]. clear E IH. induction (x :: l) as [|y m IH]; [reflexivity|]. cbn [map flat_map]. rewrite IH. reflexivity.
  Qed.
  Lemma condKeys_single ws (conds : list (clause K)) cl : kept conds = [cl] -> exists subs, condKeys ws conds = [searchKey subs ws cl] /\ (subs = None \/ cl_att cl = addTo).
  Proof.
    unfold IndexScan.condKeys. destruct (movesOn conds) eqn:E.
    - rewrite (kept_moves _ E). intros ->. cbn [firstAddTo map]. destruct (onAddTo addTo cl) eqn:Ea; eexists; (split; [reflexivity|]); [right; apply N.eqb_eq; exact Ea|left; reflexivity].
    - rewrite (kept_stays _ E). intros ->. exists None. split; [reflexivity|left; reflexivity].
  Qed.
  Lemma search_ok subs ws cl : ks_ok (searchKey subs ws cl) /\ ks_const (searchKey subs ws cl).
  Proof. split; [intro ents; split; [reflexivity|intros q Hq; apply requests_att; exact Hq]|intro ents; repeat split]. Qed.
  Lemma order_ok ws o : ks_ok (orderKey ws o) /\ ks_const (orderKey ws o).
  Proof.
    split; [intro ents; split; [reflexivity|]|intro ents; repeat split]. cbn [IndexScan.orderKey kp_reqs kp_key sk_att]. destruct (bare o); [intros q []|apply requests_att].
  Qed.
  Lemma every_ok ws : ks_ok (everyKey dflt ws) /\ ks_const (everyKey dflt ws).
  Proof. split; [intro ents; split; [reflexivity|intros q [<-|[]]; reflexivity]|intro ents; repeat split]. Qed.

  Notation satisfies r conds := (satisfies dflt addTo attach (seen r) conds r).
  Notation wants_recheck r := (wants_recheck addTo attach (seen r)).
  Notation covered := (covered compareFn dflt addTo attach useAlt curKeyOrdering canPre).
  Notation queryScan := (queryScan dflt addTo attach curKeyOrdering compareFn useAlt cmpA tuplesort junk joinFn canPre estimate sortEnts visit iterate tbmMax).

  Theorem query_spec conds orders : covered ever table conds orders ->
    exists out, queryScan ix conds orders = Some out /\ NoDup (map fst out) /\
      (forall p, In p (map fst out) <-> exists r, In r table /\ r_tid r = p /\ forall cl, In cl conds -> satisfies r conds cl) /\
      (forall r re, In r table -> In (r_tid r, re) out -> (re = true <-> exists cl, In cl conds /\ wants_recheck r conds cl)) /\
      (existsb noKey conds = false -> forall r q, In r table -> In q (query_keys conds orders) -> shows (joinFn (rq_att q)) (infos compareFn addTo r q) (seen r q)) /\
      (existsb noKey conds = false -> exists ks es, newScanKeys dflt addTo attach curKeyOrdering conds orders = Some ks /\
         findEs (reqs ks) = Some es /\ out = scanOut es ks /\ Forall (view_ok ks) (scanViews es ks) /\
         (forall q, In q (reqs ks) -> valid_req q) /\
         (forall p, In p (map fst out) -> forall s, In s ks -> sk_order (key0 s) = false -> key_holds s p)).
  Proof.
    intros [Cpart Cnull Cmode Ccol Cempty Ckind Cfast]. unfold IndexScan.queryScan, newScanKeys.
    destruct (existsb noKey conds) eqn:Enk.
    { exists []. split; [reflexivity|]. split; [constructor|]. split; [|split; [intros r re _ []|split; discriminate]].
      intro p. split; [intros []|]. intros (r & Hr & Ep & Hs). exfalso. apply existsb_exists in Enk as (cl & Hcl & En). specialize (Hs cl Hcl).
      unfold QuerySpec.satisfies in Hs. unfold noKey in En. destruct (_ && _) in Hs.
      - destruct Hs as (H1 & H2 & _). rewrite H1 in En. cbn [orb] in En. apply andb_true_iff in En as [_ En]. apply Nat.eqb_eq, length_zero_iff_nil in En. contradiction.
      - destruct Hs as (H1 & (q & Hq & _) & _). rewrite H1 in En. cbn [orb] in En. apply andb_true_iff in En as [E1 En]. apply Nat.eqb_eq, length_zero_iff_nil in En.
        apply Z.eqb_eq in E1. unfold IndexScan.requests, hidden in Hq. rewrite En, E1 in Hq. destruct Hq. }
    assert (Hnn : forall cl, In cl conds -> noKey cl = false).
    { intros cl Hcl. destruct (noKey cl) eqn:E; [|reflexivity]. exfalso. assert (existsb noKey conds = true) by (apply existsb_exists; eauto). congruence. }
    assert (Hnull : forall cl, In cl conds -> cl_isnull cl = false).
    { intros cl Hcl. specialize (Hnn cl Hcl). unfold noKey in Hnn. apply orb_false_iff in Hnn. tauto. }
    set (os := filter (fun o => negb (noKey o)) orders) in *. fold (live orders) in os. fold os in Cempty, Ckind. set (ws := existsb bare os).
    set (KC := match conds with [] => [everyKey dflt ws] | _ => condKeys ws conds end). set (ks := KC ++ map (orderKey ws) os).
    assert (Hreqs : reqs ks = query_keys conds orders).
    { unfold ks, QuerySpec.query_keys. rewrite flat_map_app. f_equal.
      - unfold KC. destruct conds; [reflexivity|apply condKeys_reqs].
      - fold os. clearbody ws. clear. induction os as [|o l IH]; [reflexivity|]. cbn [map flat_map]. rewrite IH. reflexivity. }
    assert (Hvalid : Forall valid_req (reqs ks)).
    { rewrite Hreqs. apply Forall_forall. intros q Hq. split; [auto|]. intros Hm Ha r Hr. unfold altAt in Ha. apply andb_true_iff in Ha as [Hu Ha]. apply N.eqb_eq in Ha. eapply Cnull; eauto. }
    assert (Hoks : forall s, In s ks -> ks_ok s /\ ks_const s).
    { intros s Hs. apply in_app_iff in Hs as [Hs|Hs].
      - unfold KC in Hs. destruct conds as [|c0 conds']; [destruct Hs as [<-|[]]; apply every_ok|]. apply condKeys_in in Hs as (cl & _ & [->|(-> & _)]); apply search_ok.
      - apply in_map_iff in Hs as (o & <- & _). apply order_ok. }
    assert (Hoks1 : Forall ks_ok ks) by (apply Forall_forall; intros; apply Hoks; auto).
    assert (Hoks2 : Forall ks_const ks) by (apply Forall_forall; intros; apply Hoks; auto).
    destruct (findEntries_spec (reqs ks) Hvalid) as (es & Hes & _). rewrite Hes.
    assert (Hkept : forall cl, In cl (kept conds) -> In cl conds) by (intros cl H; unfold QuerySpec.kept in H; apply filter_In in H; tauto).
    (* some condition is left *)
    assert (HKC : exists s, In s KC /\ sk_order (key0 s) = false).
    { unfold KC. destruct conds as [|c0 conds'] eqn:Econds; [exists (everyKey dflt ws); split; [left; reflexivity|reflexivity]|]. rewrite <- Econds in *.
      assert (Hne : exists cl, In cl (kept conds)).
      { destruct (movesOn conds) eqn:Em.
        - pose proof Em as Em'. unfold IndexScan.movesOn in Em. apply andb_true_iff in Em as [Em _]. apply existsb_exists in Em as (cl & Hcl & Ecl). exists cl. rewrite (kept_moves _ Em').
          apply filter_In. split; [exact Hcl|]. apply negb_true_iff. unfold onAttach. apply N.eqb_neq. apply Ccol; [exact Hcl|]. apply N.eqb_eq. exact Ecl.
        - rewrite (kept_stays _ Em). exists c0. rewrite Econds. left. reflexivity. }
      destruct Hne as (cl & Hcl). destruct (condKeys_all ws conds cl Hcl) as (s & Hs & H). exists s. split; [exact Hs|]. destruct H as [->|[-> _]]; reflexivity. }
    assert (HKo : forall s, In s KC -> sk_order (key0 s) = false).
    { intros s Hs. unfold KC in Hs. destruct conds as [|c0 conds']; [destruct Hs as [<-|[]]; reflexivity|]. apply condKeys_in in Hs as (cl & _ & [->|(-> & _)]); reflexivity. }
    assert (Hsearch : exists s, In s ks /\ sk_order (key0 s) = false).
    { destruct HKC as (s & Hs & H). exists s. split; [apply in_app_iff; left; exact Hs|exact H]. }
    (* one order *)
    assert (Hkind : exists a, forall s, In s ks -> altAt addTo useAlt (sk_att (key0 s)) = a).
    { destruct useAlt eqn:Eu; [|exists false; reflexivity]. destruct (Ckind eq_refl) as (_ & a & Ha). clear Cfast.
      destruct conds as [|c0 conds'] eqn:Econds.
      - destruct (Cempty eq_refl) as [Hos _]. exists (altAt addTo true 1%N). intros s Hs. unfold ks, KC in Hs. fold os in Hos. rewrite Hos in Hs. destruct Hs as [<-|[]]. reflexivity.
      - rewrite <- Econds in *. exists a. intros s Hs. unfold altAt. cbn [andb]. unfold ks in Hs. apply in_app_iff in Hs as [Hs|Hs].
        + unfold KC in Hs. try rewrite Econds in Hs. try rewrite <- Econds in Hs. apply condKeys_in in Hs as (cl & Hcl & [->|(-> & _)]); cbn; apply Ha; apply in_app_iff; left; exact Hcl.
        + apply in_map_iff in Hs as (o & <- & Ho). cbn. apply Ha. apply in_app_iff. right. exact Ho. }
    destruct Hkind as (a & Hkind).
    (* the fast scan *)
    assert (Hfast : isFast canPre ks = true -> fast_keys ks).
    { intro Hf. unfold isFast in Hf. apply andb_true_iff in Hf as [Hf1 Hf2]. rewrite forallb_forall in Hf1, Hf2.
      destruct conds as [|c0 conds'] eqn:Econds.
      - destruct (Cempty eq_refl) as [Hos _]. unfold ks, KC. fold os in Hos. rewrite Hos. cbn [map app]. exists (everyKey dflt ws). split; [reflexivity|].
        split; [intros s [<-|[]] _; reflexivity|]. split; [intros ents _ f T v E; discriminate|]. left. split; [intros s [<-|[]]; discriminate|]. intros _. left. reflexivity.
      - rewrite <- Econds in *. assert (EKC : KC = condKeys ws conds) by (unfold KC; rewrite Econds; reflexivity).
        assert (Hok : fast_ok dflt addTo attach curKeyOrdering conds orders).
        { apply Cfast. split; [|split].
          - intros cl Hcl. destruct (condKeys_all ws conds cl Hcl) as (s & Hs & H). assert (Hin : In s ks) by (unfold ks; rewrite EKC; apply in_app_iff; left; exact Hs).
            specialize (Hf1 s Hin). destruct H as [->|[-> _]]; exact Hf1.
          - intros o Ho. apply (Hf1 (orderKey ws o)). unfold ks. apply in_app_iff. right. apply in_map. exact Ho.
          - intros q Hq. rewrite <- Hreqs in Hq. specialize (Hf2 q Hq). destruct (rq_partial q); [discriminate|reflexivity]. }
        unfold fast_ok in Hok. destruct (kept conds) as [|cl [|c2 l2]] eqn:Ek.
        + exfalso. destruct HKC as (s & Hs & _). rewrite EKC in Hs. apply condKeys_in in Hs as (cl & Hcl & _). rewrite Ek in Hcl. destruct Hcl.
        + destruct Hok as (Ho & Hp & Hc). destruct (condKeys_single ws conds cl Ek) as (subs & Es & Hsubs). rewrite Es in EKC.
          assert (Hpart : forall ents, length ents = length (requests cl) -> pre_sound (kp_key (searchKey subs ws cl) ents)).
          { intros ents Hlen f T v Ef HT Hl Hv2. cbn [IndexScan.searchKey kp_key sk_pre sk_cons sk_ents] in *. unfold userPre in Ef. destruct (cl_pre cl) as [g|] eqn:Eg; [|discriminate].
            cbn in Ef. injection Ef as <-. unfold userCons. apply (Hp g (firstn (length (cl_vals cl)) T)); [exact Eg|exact HT| |].
            - rewrite firstn_length. rewrite Hl, Hlen. unfold IndexScan.requests. rewrite app_length, map_length. lia.
            - clear - Hv2. revert T v Hv2. induction (length (cl_vals cl)) as [|n IH]; intros T v H; [constructor|]. destruct H; cbn [firstn]; constructor; auto. }
          exists (searchKey subs ws cl). split; [|split; [|split]].
          * unfold ks. rewrite EKC. rewrite filter_app. cbn [filter app IndexScan.searchKey key0 kp_key sk_order negb].
            assert (E : filter (fun s => negb (sk_order (key0 s))) (map (orderKey ws) os) = []).
            { apply filter_none. intros s Hs. apply in_map_iff in Hs as (o & <- & _). reflexivity. }
            etransitivity; [|exact (f_equal (cons _) E)]. reflexivity.
          * intros s Hs. unfold ks in Hs. rewrite EKC in Hs. destruct Hs as [<-|Hs]; [reflexivity|]. apply in_map_iff in Hs as (o & <- & Ho'). cbn. intro Hne. apply Ho; [exact Ho'|].
            destruct (bare o) eqn:Eb; [|reflexivity]. exfalso. apply Hne. reflexivity.
          * exact Hpart.
          * cbn zeta. cbn [IndexScan.searchKey kp_reqs key0 kp_key sk_every sk_cons]. unfold userCons.
            assert (En : firstn (length (cl_vals cl)) (map (fun _ : qreq K => @None (option datum)) (requests cl)) = map (fun _ => None) (cl_vals cl)) by (rewrite user_part; reflexivity).
            unfold holds_of_none in Hc. destruct (fst (cl_cons cl (map (fun _ => None) (cl_vals cl)))) eqn:Eh.
            -- left. fold os in Hc. split; [|].
               { intros s Hs Hord. unfold ks in Hs. apply in_app_iff in Hs as [Hs|Hs]; [rewrite (HKo s Hs) in Hord; discriminate|].
                 apply in_map_iff in Hs as (o & <- & Ho'). unfold IndexScan.orderKey. cbn [kp_reqs]. rewrite (Hc o Ho'). reflexivity. }
               intros _. right. rewrite En. exact Eh.
            -- right. split; [|rewrite Hreqs; exact Hc]. unfold says. cbn [sk_every sk_cons]. unfold userCons. rewrite En, Eh. intros [[H|H] _]; discriminate.
        + destruct Hok. }
    destruct (scan_keys ks a es Hoks1 Hoks2 Hvalid Hsearch Hkind Hfast Hes) as (Hnodup & Hp & Hre & Hviews). fold (scanOut es ks).
    exists (scanOut es ks). split; [reflexivity|]. split; [exact Hnodup|].
    assert (Hcase : forall s, In s ks -> sk_order (key0 s) = false -> In s KC).
    { intros s Hs Ho. unfold ks in Hs. apply in_app_iff in Hs as [Hs|Hs]; [exact Hs|]. apply in_map_iff in Hs as (o & <- & _). discriminate. }
    rewrite Forall_forall in Hvalid.
    assert (Hvk : forall cl q, conds <> [] -> In cl (kept conds) -> In q (requests cl) -> valid_req q).
    { intros cl q Hne Hcl Hq. apply Hvalid. rewrite Hreqs. unfold QuerySpec.query_keys. apply in_app_iff. left. destruct conds; [congruence|]. apply in_flat_map. eauto. }
    assert (Htid : forall p, (forall s, In s ks -> sk_order (key0 s) = false -> key_holds s p) -> exists r, In r table /\ r_tid r = p).
    { intros p H. destruct HKC as (s & Hs & Ho). destruct (H s ltac:(apply in_app_iff; left; exact Hs) Ho) as ((q & y & Hq & Hy & Ep) & _).
      destruct (found_row q y) as (r & Hr & Er); [apply Hvalid; apply in_flat_map; exists s; split; [apply in_app_iff; left; exact Hs|exact Hq]|exact Hy|]. exists r. split; [exact Hr|congruence]. }
    assert (Hmain : forall r, In r table -> (forall s, In s ks -> sk_order (key0 s) = false -> key_holds s (r_tid r)) <-> forall cl, In cl conds -> satisfies r conds cl).
    { intros r Hr. destruct conds as [|c0 conds'] eqn:Econds.
      - split; [intros _ cl []|]. intros _ s Hs Ho. specialize (Hcase s Hs Ho). unfold KC in Hcase. destruct Hcase as [<-|[]].
        destruct (Cempty eq_refl) as [_ Hc1]. destruct (Hc1 r Hr) as (e & He & Ea).
        assert (Hv1 : valid_req (everything dflt)) by (apply Hvalid; rewrite Hreqs; left; reflexivity).
        split; [|split; [left; reflexivity|intros _ subs E; discriminate]].
        assert (Hse : seen r (everything dflt) <> None).
        { destruct (seen_shows _ r Hv1 Hr) as [[H _]|(a' & t & _ & ->)]; [|discriminate]. exfalso.
          assert (Hin : In (add (snd e)) (infos compareFn addTo r (everything dflt))).
          { unfold infos. apply in_map_iff. exists e. split; [reflexivity|]. apply filter_In. split; [exact He|]. unfold asks. cbn. rewrite Ea. reflexivity. }
          rewrite H in Hin. destruct Hin. }
        apply present_some in Hse as (y & Hy & Ep). exists (everything dflt), y. split; [left; reflexivity|auto].
      - rewrite <- Econds in *. assert (Hne : conds <> []) by (rewrite Econds; discriminate). assert (EKC : KC = condKeys ws conds) by (unfold KC; rewrite Econds; reflexivity).
        assert (Hsat : forall cl, In cl (kept conds) -> QuerySpec.satisfies dflt addTo attach (seen r) conds r cl <-> holds (seen r) cl).
        { intros cl Hcl. unfold QuerySpec.satisfies. unfold QuerySpec.kept in Hcl. apply filter_In in Hcl as [_ Hk]. apply negb_true_iff in Hk. rewrite Hk. reflexivity. }
        assert (Hsubs : movesOn conds = true -> (exists x, r_attach r = Some x /\ Forall (fun f => f x = 0) (subsOf attach conds)) <->
                  (forall cl, In cl conds -> ~ In cl (kept conds) -> attached_holds r cl)).
        { intro Em. pose proof (kept_moves _ Em) as Ek.
          assert (Hon : forall cl, In cl conds -> (~ In cl (kept conds) <-> onAttach attach cl = true)).
          { intros cl Hcl. rewrite Ek. rewrite filter_In. destruct (onAttach attach cl); cbn [negb]; split; intro H0; try discriminate H0; try reflexivity; try (intros [_ X]; discriminate X); exfalso; apply H0; auto. }
          split.
          - intros (x & Ex & Hf) cl Hcl Hno. split; [auto|]. split.
            + intro E. specialize (Hnn cl Hcl). unfold noKey in Hnn. rewrite (Hnull cl Hcl), (Cmode cl Hcl Hno), E in Hnn. discriminate.
            + exists x. split; [exact Ex|]. intros v Hv'. rewrite Forall_forall in Hf. apply Hf. unfold subsOf. apply in_flat_map. exists cl. split; [|apply in_map; exact Hv'].
              apply filter_In. split; [exact Hcl|]. apply (Hon cl Hcl). exact Hno.
          - intro H. pose proof Em as Em'. unfold IndexScan.movesOn in Em'. apply andb_true_iff in Em' as [_ Em']. apply existsb_exists in Em' as (cl & Hcl & Ecl).
            destruct (H cl Hcl (proj2 (Hon cl Hcl) Ecl)) as (_ & _ & x & Ex & _). exists x. split; [exact Ex|]. apply Forall_forall. intros f Hf. unfold subsOf in Hf.
            apply in_flat_map in Hf as (cl' & Hcl' & Hf). apply filter_In in Hcl' as [Hcl' Ecl']. apply in_map_iff in Hf as (v & <- & Hv').
            destruct (H cl' Hcl' (proj2 (Hon cl' Hcl') Ecl')) as (_ & _ & x' & Ex' & Hx'). rewrite Ex in Ex'. injection Ex' as <-. apply Hx'. exact Hv'. }
        assert (Hexist : movesOn conds = true -> exists cl, In cl (kept conds) /\ cl_att cl = addTo).
        { intro Em. pose proof Em as Em'. unfold IndexScan.movesOn in Em'. apply andb_true_iff in Em' as [Em' _]. apply existsb_exists in Em' as (cl & Hcl & Ecl). unfold onAddTo in Ecl. apply N.eqb_eq in Ecl.
          exists cl. split; [|exact Ecl]. rewrite (kept_moves _ Em). apply filter_In. split; [exact Hcl|]. apply negb_true_iff. unfold onAttach. apply N.eqb_neq. apply Ccol; auto. }
        split.
        + intros H cl Hcl. assert (Hin : forall s, In s (condKeys ws conds) -> key_holds s (r_tid r)).
          { intros s Hs. rewrite <- EKC in Hs. apply H; [apply in_app_iff; left; exact Hs|apply HKo; exact Hs]. }
          destruct (in_dec (fun x y : bool => bool_dec x y) true [negb ((cl_att cl =? attach)%N && existsb (fun c' => (cl_att c' =? addTo)%N) conds)]) as [Hk|Hk].
          * assert (Hk' : In cl (kept conds)) by (unfold QuerySpec.kept; apply filter_In; split; [exact Hcl|destruct Hk as [Hk|[]]; exact Hk]).
            apply (Hsat cl Hk'). destruct (condKeys_all ws conds cl Hk') as (s & Hs & Hs'). specialize (Hin s Hs). destruct Hs' as [->|[-> Ea]].
            -- apply (key_plain ws cl r (Hnull cl Hcl)). exact Hin.
            -- apply (key_subs _ ws cl r Hr (fun q => Hvk cl q Hne Hk') Ea (Hnull cl Hcl)) in Hin. tauto.
          * assert (Ek : (cl_att cl =? attach)%N && existsb (fun c' => (cl_att c' =? addTo)%N) conds = true).
            { destruct (_ && _); [reflexivity|]. exfalso. apply Hk. left. reflexivity. }
            unfold QuerySpec.satisfies. rewrite Ek.
            assert (Em : movesOn conds = true).
            { apply andb_true_iff in Ek as [Ek1 Ek2]. unfold IndexScan.movesOn. apply andb_true_iff. split; [exact Ek2|]. apply existsb_exists. exists cl. split; [exact Hcl|exact Ek1]. }
            assert (Hno : ~ In cl (kept conds)).
            { unfold QuerySpec.kept. rewrite filter_In, Ek. intros [_ X]. discriminate. }
            apply (Hsubs Em); [|exact Hcl|exact Hno].
            assert (Hone : exists cl', In cl' (kept conds) /\ cl_att cl' = addTo /\ In (searchKey (Some (subsOf attach conds)) ws cl') (condKeys ws conds)).
            { unfold IndexScan.condKeys. rewrite Em, (kept_moves _ Em). apply firstAddTo_one. rewrite <- (kept_moves _ Em). apply Hexist. exact Em. }
            destruct Hone as (cl' & Hk2 & Ea & Hin'). specialize (Hin _ Hin'). apply (key_subs _ ws cl' r Hr (fun q => Hvk cl' q Hne Hk2) Ea (Hnull cl' (Hkept cl' Hk2))) in Hin. tauto.
        + intros H s Hs Ho. specialize (Hcase s Hs Ho). rewrite EKC in Hcase. apply condKeys_in in Hcase as (cl & Hcl & Hform).
          assert (Hh : holds (seen r) cl) by (apply (Hsat cl Hcl); apply H; apply Hkept; exact Hcl).
          destruct Hform as [->|(-> & Ea & Em)].
          * apply (key_plain ws cl r (Hnull cl (Hkept cl Hcl))). exact Hh.
          * apply (key_subs _ ws cl r Hr (fun q => Hvk cl q Hne Hcl) Ea (Hnull cl (Hkept cl Hcl))). split; [exact Hh|]. apply (Hsubs Em).
            intros cl' Hcl' Hno. specialize (H cl' Hcl'). unfold QuerySpec.satisfies in H.
            assert (Ek : (cl_att cl' =? attach)%N && existsb (fun c' => (cl_att c' =? addTo)%N) conds = true).
            { destruct (_ && _) eqn:E; [reflexivity|]. exfalso. apply Hno. unfold QuerySpec.kept. apply filter_In. rewrite E. auto. }
            rewrite Ek in H. exact H. }
    split; [|split; [|split]].
    4:{ intros _. exists ks, es. split; [reflexivity|]. split; [exact Hes|]. split; [reflexivity|]. split; [exact Hviews|]. split; [exact Hvalid|].
        intros p Hin. apply Hp. exact Hin. }
    - intro p. rewrite Hp. split.
      + intro H. destruct (Htid p H) as (r & Hr & <-). exists r. split; [exact Hr|]. split; [reflexivity|]. apply (Hmain r Hr). exact H.
      + intros (r & Hr & <- & H). apply (Hmain r Hr). exact H.
    - intros r re Hr Hin. rewrite (Hre _ _ Hin). destruct conds as [|c0 conds'] eqn:Econds.
      + split; [|intros (cl & [] & _)]. intros (s & Hs & Ho & Hk & _). specialize (Hcase s Hs Ho). destruct Hcase as [<-|[]]. discriminate.
      + rewrite <- Econds in *. assert (EKC : KC = condKeys ws conds) by (unfold KC; rewrite Econds; reflexivity).
        assert (Hrk : forall subs cl, key_recheck (searchKey subs ws cl) (r_tid r) <-> snd (cl_cons cl (map (fun v => seen r (reqOf (cl_att cl) v)) (cl_vals cl))) = true).
        { intros subs cl. unfold key_recheck. cbn [IndexScan.searchKey kp_reqs key0 kp_key sk_every sk_cons]. unfold userCons. rewrite user_part. unfold seen. tauto. }
        split.
        * intros (s & Hs & Ho & Hk). specialize (Hcase s Hs Ho). rewrite EKC in Hcase. apply condKeys_in in Hcase as (cl & Hcl & Hform).
          exists cl. split; [apply Hkept; exact Hcl|]. split.
          -- unfold QuerySpec.kept in Hcl. apply filter_In in Hcl as [_ Hcl]. apply negb_true_iff in Hcl. exact Hcl.
          -- destruct Hform as [->|(-> & _)]; apply Hrk in Hk; exact Hk.
        * intros (cl & Hcl & Hk & Hc). assert (Hk' : In cl (kept conds)) by (unfold QuerySpec.kept; apply filter_In; split; [exact Hcl|rewrite Hk; reflexivity]).
          destruct (condKeys_all ws conds cl Hk') as (s & Hs & Hform). exists s. rewrite <- EKC in Hs. split; [apply in_app_iff; left; exact Hs|]. split; [apply HKo; exact Hs|].
          destruct Hform as [->|(-> & _)]; apply Hrk; exact Hc.
    - intros _ r q Hr Hq. apply seen_shows; [apply Hvalid; rewrite Hreqs; exact Hq|exact Hr].
  Qed.
End Assemble.

(** ** From the table *)
Theorem query_table (K : Type) (compareFn : N -> K -> K -> Z) altOf attrOf cmpA rawSize (dflt : K) useAlt addTo built history ix :
  table_index compareFn altOf attrOf cmpA rawSize dflt useAlt addTo built history ix ->
  let table := rows_now built history in
  forall attach curKeyOrdering tuplesort junk joinFn canPre estimate sortEnts visit iterate tbmMax,
  sorter tuplesort -> junk_harmless compareFn history ix junk -> (forall f a, joinFn addTo = Some f -> f a a = a) -> sorts_entries useAlt addTo cmpA sortEnts ->
  forall conds orders, covered compareFn dflt addTo attach useAlt curKeyOrdering canPre (ever built history) table conds orders ->
  exists V out,
    queryScan dflt addTo attach curKeyOrdering compareFn useAlt cmpA tuplesort junk joinFn canPre estimate sortEnts visit iterate tbmMax ix conds orders = Some out /\
    (existsb noKey conds = false -> forall r q, In r table -> In q (query_keys dflt addTo attach curKeyOrdering conds orders) ->
       shows (joinFn (rq_att q)) (infos compareFn addTo r q) (V r q)) /\
    NoDup (map fst out) /\
    (forall p, In p (map fst out) <-> exists r, In r table /\ r_tid r = p /\ forall c, In c conds -> satisfies dflt addTo attach (V r) conds r c) /\
    (forall r re, In r table -> In (r_tid r, re) out ->
       (re = true <-> exists c, In c conds /\ wants_recheck addTo attach (V r) conds c)).
Proof.
  intros Hti table attach curKeyOrdering tuplesort junk joinFn canPre estimate sortEnts visit iterate tbmMax Ht HJ Hid Hs conds orders Hcov.
  destruct (table_facts compareFn altOf attrOf cmpA rawSize dflt useAlt addTo built history ix junk Hti HJ) as (G & HI & Hag & Hfr & Hju & Hnd & Hin & Hoff).
  destruct (query_spec compareFn altOf attrOf cmpA rawSize (ti_columns _ _ _ _ _ _ _ _ _ _ _ Hti) dflt useAlt addTo attach curKeyOrdering (ti_alt _ _ _ _ _ _ _ _ _ _ _ Hti) tuplesort Ht junk joinFn Hid canPre estimate sortEnts Hs visit iterate tbmMax
    table Hnd Hoff false true ix G HI Hag (ever built history) Hin Hfr Hju conds orders Hcov) as (out & A & B & C & D & E & _).
  eexists _, out. split; [exact A|]. split; [exact E|]. split; [exact B|]. split; [exact C|exact D].
Qed.

Lemma comparetup_same alt (cmpA : datum -> datum -> Z) a b :
  (alt = true -> add a <> None /\ add b <> None) -> comparetup_rumitem cmpA alt a b = compareRumItem alt cmpA a b.
Proof.
  intro H. unfold comparetup_rumitem, compareRumItem. destruct alt; [|reflexivity]. destruct (H eq_refl). destruct (add a), (add b); try congruence; reflexivity.
Qed.

(** ** NULL and empty queries (C37) *)
Lemma query_null (K : Type) (compareFn : N -> K -> K -> Z) cmpA (dflt : K) useAlt addTo attach curKeyOrdering tuplesort junk joinFn canPre estimate sortEnts visit iterate tbmMax ix conds orders c :
  In c conds -> cl_isnull c = true \/ (cl_vals c = [] /\ cl_mode c = 0) ->
  queryScan dflt addTo attach curKeyOrdering compareFn useAlt cmpA tuplesort junk joinFn canPre estimate sortEnts visit iterate tbmMax ix conds orders = Some [].
Proof.
  intros Hc H. unfold queryScan, newScanKeys. replace (existsb noKey conds) with true; [reflexivity|]. symmetry. apply existsb_exists. exists c. split; [exact Hc|].
  unfold noKey, modeOf. destruct H as [-> |[-> ->]]; [reflexivity|]. cbn. apply orb_true_r.
Qed.
Lemma shows_none (join : option (datum -> datum -> datum)) l : ~ (exists o, shows join l o /\ o <> None) -> l = [].
Proof. intro H. destruct l as [|a t]; [reflexivity|]. exfalso. apply H. eexists. split; [right; exists a, t; split; reflexivity|discriminate]. Qed.
Lemma shows_some (join : option (datum -> datum -> datum)) l o : shows join l o -> (o <> None <-> l <> []).
Proof.
  intros [[-> ->]|(a & t & P & ->)]; [tauto|]. split; intros _; [|discriminate]. intros ->. apply Permutation_nil in P. discriminate.
Qed.
Lemma NoDup_map_eq {T U} (f : T -> U) l x y : NoDup (map f l) -> In x l -> In y l -> f x = f y -> x = y.
Proof.
  induction l as [|a l IH]; intros H Hx Hy E; [destruct Hx|]. cbn [map] in H. apply NoDup_cons_iff in H as [H1 H2]. destruct Hx as [<-|Hx], Hy as [<-|Hy]; auto.
  - exfalso. apply H1. rewrite E. apply in_map. exact Hy.
  - exfalso. apply H1. rewrite <- E. apply in_map. exact Hx.
Qed.
Lemma infos_some {K} (compareFn : N -> K -> K -> Z) addTo r q : infos compareFn addTo r q <> [] <-> exists e, In e (row_pairs addTo r) /\ asks compareFn q (fst e) = true.
Proof.
  unfold infos. split.
  - intro H. destruct (filter _ _) as [|e l] eqn:E; [cbn in H; congruence|]. exists e. apply (filter_In (fun e => asks compareFn q (fst e)) e (row_pairs addTo r)). rewrite E. left. reflexivity.
  - intros (e & He) H. apply map_eq_nil in H. apply (filter_In (fun e => asks compareFn q (fst e)) e (row_pairs addTo r)) in He. rewrite H in He. destruct He.
Qed.
Lemma query_modes (K : Type) (compareFn : N -> K -> K -> Z) altOf attrOf cmpA rawSize (dflt : K) useAlt addTo built history ix :
  table_index compareFn altOf attrOf cmpA rawSize dflt useAlt addTo built history ix ->
  let table := rows_now built history in
  forall attach curKeyOrdering tuplesort junk joinFn canPre estimate sortEnts visit iterate tbmMax,
  sorter tuplesort -> junk_harmless compareFn history ix junk -> (forall f a, joinFn addTo = Some f -> f a a = a) -> sorts_entries useAlt addTo cmpA sortEnts ->
  forall conds orders, covered compareFn dflt addTo attach useAlt curKeyOrdering canPre (ever built history) table conds orders ->
  exists out, queryScan dflt addTo attach curKeyOrdering compareFn useAlt cmpA tuplesort junk joinFn canPre estimate sortEnts visit iterate tbmMax ix conds orders = Some out /\
  (forall c r, In c (kept addTo attach conds) -> In r table -> In (r_tid r) (map fst out) ->
     cl_isnull c = false /\ exists q e, In q (requests dflt c) /\ In e (row_pairs addTo r) /\ asks compareFn q (fst e) = true) /\
  (forall c r, conds = [c] -> In r table -> cl_isnull c = false -> cl_vals c = [] -> cl_mode c <> 0 ->
     (In (r_tid r) (map fst out) <-> fst (cl_cons c []) = true /\
        exists e, In e (row_pairs addTo r) /\ k_att (fst e) = cl_att c /\
          (if cl_mode c =? 1 then k_cat (fst e) = CatEmptyItem else k_cat (fst e) <> CatNullItem))).
Proof.
  intros Hti table attach curKeyOrdering tuplesort junk joinFn canPre estimate sortEnts visit iterate tbmMax Ht HJ Hid Hs conds orders Hcov.
  destruct (query_table K compareFn altOf attrOf cmpA rawSize dflt useAlt addTo built history ix Hti attach curKeyOrdering tuplesort junk joinFn canPre estimate sortEnts visit iterate tbmMax Ht HJ Hid Hs conds orders Hcov)
    as (V & out & Hq & HV & _ & Hp & _). fold table in HV, Hp.
  assert (Htid : forall r r', In r table -> In r' table -> r_tid r' = r_tid r -> r' = r).
  { intros r r' Hr Hr' E. destruct (table_facts compareFn altOf attrOf cmpA rawSize dflt useAlt addTo built history ix junk Hti HJ) as (_ & _ & _ & _ & _ & Hnd & _). eapply NoDup_map_eq; [exact Hnd|exact Hr'|exact Hr|exact E]. }
  assert (Hne : forall c q, In c (kept addTo attach conds) -> In q (requests dflt c) -> In q (query_keys dflt addTo attach curKeyOrdering conds orders)).
  { intros c q Hc Hq'. unfold query_keys. apply in_app_iff. left. destruct conds; [destruct Hc|]. apply in_flat_map. exists c. auto. }
  exists out. split; [exact Hq|]. split.
  - intros c r Hc Hr Hin. apply Hp in Hin as (r' & Hr' & E & Hsat). apply (Htid r r' Hr Hr') in E. subst r'.
    assert (Hc' : In c conds) by (unfold kept in Hc; apply filter_In in Hc; tauto).
    assert (Hk : existsb noKey conds = false).
    { destruct (existsb noKey conds) eqn:E; [|reflexivity]. exfalso. apply existsb_exists in E as (c' & Hc2 & E).
      unfold noKey in E. apply orb_true_iff in E as [E|E].
      - specialize (Hsat c' Hc2). unfold satisfies in Hsat. destruct (_ && _) in Hsat; [destruct Hsat|destruct Hsat]; congruence.
      - apply andb_true_iff in E as [E1 E2]. apply Nat.eqb_eq, length_zero_iff_nil in E2. apply Z.eqb_eq in E1. specialize (Hsat c' Hc2). unfold satisfies in Hsat. destruct (_ && _) in Hsat.
        + destruct Hsat as (_ & H & _). congruence.
        + destruct Hsat as (_ & (q & Hq' & _) & _). unfold requests, hidden in Hq'. rewrite E1, E2 in Hq'. destruct Hq'. }
    specialize (Hsat c Hc'). unfold kept in Hc. pose proof Hc as Hc2. apply filter_In in Hc2 as [_ Hc2]. apply negb_true_iff in Hc2. unfold satisfies in Hsat. rewrite Hc2 in Hsat.
    destruct Hsat as (Hn & (q & Hq' & Hv) & _). split; [exact Hn|]. apply (shows_some _ _ _ (HV Hk r q Hr (Hne c q Hc Hq'))) in Hv. apply infos_some in Hv as (e & He & Ha). exists q, e. auto.
  - intros c r -> Hr Hn Hv Hm.
    assert (Hmode : modeOf c = if cl_mode c =? 1 then 1 else 2).
    { unfold modeOf. destruct (Z.ltb_spec (cl_mode c) 0), (Z.ltb_spec 2 (cl_mode c)), (Z.eqb_spec (cl_mode c) 1); cbn [orb]; lia. }
    assert (Hk : existsb noKey [c] = false).
    { cbn [existsb]. unfold noKey. rewrite Hn, Hmode, Hv. destruct (cl_mode c =? 1); reflexivity. }
    assert (Hkept : kept addTo attach [c] = [c]).
    { unfold kept. cbn [filter]. cbn [existsb]. rewrite orb_false_r. destruct (N.eqb_spec (cl_att c) attach) as [E1|E1]; [|reflexivity]. destruct (N.eqb_spec (cl_att c) addTo) as [E2|E2]; [|reflexivity].
      exfalso. apply (cov_columns _ _ _ _ _ _ _ _ _ _ _ Hcov c (or_introl eq_refl) E2 E1). }
    assert (Hnot : (cl_att c =? attach)%N && existsb (fun c' => (cl_att c' =? addTo)%N) [c] = false).
    { unfold kept in Hkept. cbn [filter] in Hkept. destruct (_ && _) in Hkept |- *; [discriminate|reflexivity]. }
    set (q := if cl_mode c =? 1 then mkReq (cl_att c) dflt CatEmptyItem None false else mkReq (cl_att c) dflt CatEmptyQuery None true).
    assert (Hreq : requests dflt c = [q]).
    { unfold requests, hidden, q. rewrite Hv, Hmode. destruct (cl_mode c =? 1); reflexivity. }
    assert (Hasks : forall k : ekey K, asks compareFn q k = true <-> k_att k = cl_att c /\ (if cl_mode c =? 1 then k_cat k = CatEmptyItem else k_cat k <> CatNullItem)).
    { intro k. unfold q, asks. destruct (cl_mode c =? 1); cbn [rq_partial rq_cat rq_att rq_key rq_all].
      - unfold rumCompareAttEntries. cbn [k_att k_val k_cat]. rewrite Z.eqb_eq. destruct (N.eqb_spec (k_att k) (cl_att c)) as [E|E].
        + unfold rumCompareEntries. destruct (k_cat k); cbn; split; intros; try discriminate; try tauto; try (destruct H; discriminate); auto.
        + split; [|tauto]. intro H. exfalso. revert H. destruct (k_att k <? cl_att c)%N; discriminate.
      - rewrite andb_true_iff, N.eqb_eq. destruct (k_cat k); cbn; split; intros [H1 H2]; split; auto; try discriminate; congruence. }
    assert (Hin : In q (query_keys dflt addTo attach curKeyOrdering [c] orders)) by (apply (Hne c); [rewrite Hkept; left; reflexivity|rewrite Hreq; left; reflexivity]).
    assert (Hsat : satisfies dflt addTo attach (V r) [c] r c <-> fst (cl_cons c []) = true /\ exists e, In e (row_pairs addTo r) /\ asks compareFn q (fst e) = true).
    { unfold satisfies. rewrite Hnot. unfold holds. rewrite Hreq, Hv. cbn [map]. rewrite <- infos_some, <- (shows_some _ _ _ (HV Hk r q Hr Hin)). split.
      - intros (_ & (q' & [<-|[]] & H) & H2). auto.
      - intros (H1 & H2). split; [exact Hn|]. split; [|exact H1]. exists q. split; [left; reflexivity|exact H2]. }
    rewrite Hp. split.
    + intros (r' & Hr' & E & H). apply (Htid r r' Hr Hr') in E. subst r'. specialize (H c (or_introl eq_refl)). apply Hsat in H as (H1 & e & He & Ha). split; [exact H1|]. exists e. split; [exact He|]. apply Hasks. exact Ha.
    + intros (H1 & e & He & Ha). exists r. split; [exact Hr|]. split; [reflexivity|]. intros c' [<-|[]]. apply Hsat. split; [exact H1|]. exists e. split; [exact He|]. apply Hasks. exact Ha.
Qed.
