(** Proofs: scalar conditions (C24). *)
From Coq Require Import NArith ZArith Lia List Permutation Sorted Bool Arith.
From Verif Require Import VacTreeSpec VacIndex VacScanSpec LifeSpec LifeProof LifeQuery Base Ord OrdProof Codec Entries Bulk BulkSpec EntryTree IndexSpec ScanEntry Scan TidBitmap IndexScan QuerySpec IndexScanProof Scalar ScalarSpec.
Import ListNotations.
Local Open Scope Z_scope.

Lemma prefix_holds {T} (cmp : T -> T -> Z) s c b : total_cmp cmp -> forall a, (match s with SLess | SLessEqual => True | _ => a = c end) ->
  (compare_prefix cmp s c a b = 0 <-> op_holds s (cmp b c)).
Proof.
  intros OK a Ha. pose proof (tc_anti _ OK b c) as H1. pose proof (tc_anti _ OK c b) as H2. unfold compare_prefix, op_holds. destruct s; try subst a.
  - destruct (Z.ltb_spec 0 (cmp c b)); lia.
  - destruct (Z.leb_spec 0 (cmp c b)); lia.
  - destruct (Z.eqb_spec (cmp c b) 0); cbn [negb]; lia.
  - destruct (Z.leb_spec (cmp c b) 0); lia.
  - destruct (Z.ltb_spec (cmp c b) 0); [lia|]. destruct (Z.eqb_spec (cmp c b) 0); lia.
Qed.
Lemma scalar_fields {K} (compareFn : N -> K -> K -> Z) leftmost cmpA s : let c := scalarClause compareFn leftmost cmpA s in
  cl_att c = sc_att s /\ cl_isnull c = false /\ cl_cons c = btree_consistent /\ cl_pre c = None /\ cl_mode c = 0 /\
  exists v, cl_vals c = [v] /\ qv_null v = false /\ qv_key v = fst (extract_query (leftmost (sc_att s)) (sc_op s) (sc_key s)) /\
    qv_partial v = (if snd (extract_query (leftmost (sc_att s)) (sc_op s) (sc_key s)) then Some (compare_prefix (compareFn (sc_att s)) (sc_op s) (sc_key s) (qv_key v)) else None) /\
    qv_sub v = compare_prefix cmpA (sc_op s) (sc_dat s) (sc_dat s).
Proof. unfold scalarClause. destruct (extract_query _ _ _) as [start partial] eqn:E. cbn. repeat split. eexists. repeat split. Qed.

Section Scalar.
  Context {K : Type}.
  Variable compareFn : N -> K -> K -> Z.
  Hypothesis HK : forall n, total_cmp (compareFn n).
  Variables (leftmost : N -> K) (cmpA : datum -> datum -> Z) (dflt : K) (addTo attach : N).
  Notation clauseOf := (scalarClause compareFn leftmost cmpA).
  Definition starts_low (P : K -> Prop) (s : scond K) : Prop :=
    match sc_op s with SLess | SLessEqual => forall k, P k -> compareFn (sc_att s) (leftmost (sc_att s)) k <= 0 | _ => True end.
  Lemma scalar_requests s : exists q, requests dflt (clauseOf s) = [q] /\ rq_att q = sc_att s /\ rq_all q = false /\ rq_cat q = CatNormKey /\
    rq_key q = fst (extract_query (leftmost (sc_att s)) (sc_op s) (sc_key s)) /\
    rq_partial q = (if snd (extract_query (leftmost (sc_att s)) (sc_op s) (sc_key s)) then Some (compare_prefix (compareFn (sc_att s)) (sc_op s) (sc_key s) (rq_key q)) else None) /\
    map (reqOf (cl_att (clauseOf s))) (cl_vals (clauseOf s)) = [q].
  Proof.
    destruct (scalar_fields compareFn leftmost cmpA s) as (E1 & _ & _ & _ & E5 & v & Ev & En & Ek & Ep & _).
    exists (reqOf (sc_att s) v). unfold requests, hidden, modeOf. rewrite E5, Ev, E1. cbn. rewrite En. repeat split; assumption.
  Qed.
  Lemma scalar_partial P s q : starts_low P s -> In q (requests dflt (clauseOf s)) -> partial_ok compareFn P q.
  Proof.
    intros Hs Hq f Ef. destruct (scalar_requests s) as (q' & E & Ea & _ & _ & Ek & Ep & _). rewrite E in Hq. destruct Hq as [<-|[]].
    rewrite Ep in Ef. rewrite Ea, Ek. clear E Ep. rewrite Ek in Ef. clear Ek. pose proof (HK (sc_att s)) as OK. unfold starts_low in Hs.
    set (n := sc_att s) in *. set (c := sc_key s) in *. set (cmp := compareFn n) in *.
    destruct (sc_op s); cbn [extract_query fst snd] in *; try discriminate; injection Ef as <-.
    - split; [intros k Pk _; apply Hs; exact Pk|]. unfold compare_prefix. split.
      + intros k k' _ _ _ H. destruct (Z.ltb_spec 0 (cmp c k)); [lia|]. intros _. destruct (Z.ltb_spec 0 (cmp c k')); [|lia].
        exfalso. assert (cmp c k' <= 0) by (eapply (tc_trans _ OK); [|exact H]; lia). lia.
      + intros k k' _ _ H. assert (Hk : cmp k k' <= 0) by lia. assert (Hk' : cmp k' k <= 0) by (rewrite (cmp_sym_eq _ OK _ _ H); lia).
        destruct (Z.ltb_spec 0 (cmp c k)), (Z.ltb_spec 0 (cmp c k')); try reflexivity; exfalso.
        * assert (cmp c k <= 0) by (eapply (tc_trans _ OK); [|exact Hk']; lia). lia.
        * assert (cmp c k' <= 0) by (eapply (tc_trans _ OK); [|exact Hk]; lia). lia.
    - split; [intros k Pk _; apply Hs; exact Pk|]. unfold compare_prefix. split.
      + intros k k' _ _ _ H. destruct (Z.leb_spec 0 (cmp c k)); [lia|]. intros _. destruct (Z.leb_spec 0 (cmp c k')); [|lia].
        exfalso. assert (cmp c k' < 0) by (eapply (cmp_lt_le_trans _ OK); [|exact H]; lia). lia.
      + intros k k' _ _ H. assert (Hk : cmp k k' <= 0) by lia. assert (Hk' : cmp k' k <= 0) by (rewrite (cmp_sym_eq _ OK _ _ H); lia).
        destruct (Z.leb_spec 0 (cmp c k)), (Z.leb_spec 0 (cmp c k')); try reflexivity; exfalso.
        * assert (cmp c k < 0) by (eapply (cmp_lt_le_trans _ OK); [|exact Hk']; lia). lia.
        * assert (cmp c k' < 0) by (eapply (cmp_lt_le_trans _ OK); [|exact Hk]; lia). lia.
    - unfold compare_prefix. split; [intros k _; destruct (Z.leb_spec (cmp c k) 0); lia|]. split.
      + intros k k' _ _ H. destruct (Z.leb_spec (cmp c k) 0); lia.
      + intros k k' _ _ H. assert (Hk : cmp k k' <= 0) by lia. assert (Hk' : cmp k' k <= 0) by (rewrite (cmp_sym_eq _ OK _ _ H); lia).
        destruct (Z.leb_spec (cmp c k) 0), (Z.leb_spec (cmp c k') 0); try reflexivity; exfalso.
        * assert (cmp c k' <= 0) by (eapply (tc_trans _ OK); [|exact Hk]; lia). lia.
        * assert (cmp c k <= 0) by (eapply (tc_trans _ OK); [|exact Hk']; lia). lia.
    - unfold compare_prefix. split; [intros k _; destruct (Z.ltb_spec (cmp c k) 0); [lia|]; destruct (Z.eqb_spec (cmp c k) 0); lia|]. split.
      + intros k k' _ _ H. destruct (Z.ltb_spec (cmp c k) 0); [lia|]. destruct (Z.eqb_spec (cmp c k) 0); lia.
      + intros k k' _ _ H. assert (Hk : cmp k k' <= 0) by lia. assert (Hk' : cmp k' k <= 0) by (rewrite (cmp_sym_eq _ OK _ _ H); lia).
        assert (A1 : cmp c k < 0 -> cmp c k' < 0) by (intro; eapply (cmp_lt_le_trans _ OK); eauto). assert (A2 : cmp c k' < 0 -> cmp c k < 0) by (intro; eapply (cmp_lt_le_trans _ OK); eauto).
        assert (A3 : cmp c k <= 0 -> cmp c k' <= 0) by (intro; eapply (tc_trans _ OK); eauto). assert (A4 : cmp c k' <= 0 -> cmp c k <= 0) by (intro; eapply (tc_trans _ OK); eauto).
        destruct (Z.ltb_spec (cmp c k) 0), (Z.ltb_spec (cmp c k') 0), (Z.eqb_spec (cmp c k) 0), (Z.eqb_spec (cmp c k') 0); try reflexivity; lia.
  Qed.
  Lemma scalar_asks s q k : In q (requests dflt (clauseOf s)) ->
    (asks compareFn q k = true <-> k_att k = sc_att s /\ k_cat k = CatNormKey /\ op_holds (sc_op s) (compareFn (sc_att s) (k_val k) (sc_key s))).
  Proof.
    intro Hq. destruct (scalar_requests s) as (q' & E & Ea & _ & Ec & Ek & Ep & _). rewrite E in Hq. destruct Hq as [<-|[]]. unfold asks. rewrite Ep, Ec, Ea, Ek.
    assert (Hp : snd (extract_query (leftmost (sc_att s)) (sc_op s) (sc_key s)) = true ->
      ((k_att k =? sc_att s)%N && (cat_code CatNormKey =? 0) && (cat_code (k_cat k) =? 0) && (compare_prefix (compareFn (sc_att s)) (sc_op s) (sc_key s) (fst (extract_query (leftmost (sc_att s)) (sc_op s) (sc_key s))) (k_val k) =? 0) = true <->
       k_att k = sc_att s /\ k_cat k = CatNormKey /\ op_holds (sc_op s) (compareFn (sc_att s) (k_val k) (sc_key s)))).
    { intros _. rewrite !andb_true_iff, N.eqb_eq, !Z.eqb_eq. rewrite (prefix_holds _ _ _ _ (HK (sc_att s))); [|destruct (sc_op s); cbn; auto].
      assert (Hcat : cat_code (k_cat k) = 0 <-> k_cat k = CatNormKey) by (destruct (k_cat k); cbn; split; intro; try reflexivity; discriminate). rewrite Hcat. cbn [cat_code]. tauto. }
    destruct (sc_op s) eqn:Eo; cbn [extract_query fst snd] in *; try (apply Hp; reflexivity). clear Hp.
    unfold rumCompareAttEntries. cbn [k_att k_val k_cat]. rewrite Z.eqb_eq. destruct (N.eqb_spec (k_att k) (sc_att s)) as [E1|E1]; cbn [negb].
    - rewrite E1. unfold rumCompareEntries. destruct (k_cat k); cbn; split; try tauto; intros H; try discriminate H; try tauto; destruct H as (_ & H & _); discriminate.
    - split; [|tauto]. intro H. exfalso. revert H. destruct (k_att k <? sc_att s)%N; discriminate.
  Qed.
  Lemma kept_scalar conds c : In c (kept addTo attach (map clauseOf conds)) -> exists s, In s conds /\ c = clauseOf s /\
    ((sc_att s =? attach)%N && existsb (fun s' => (sc_att s' =? addTo)%N) conds) = false.
  Proof.
    intro H. unfold kept in H. apply filter_In in H as [H1 H2]. apply in_map_iff in H1 as (s & <- & Hs). exists s. split; [exact Hs|]. split; [reflexivity|].
    apply negb_true_iff in H2. destruct (scalar_fields compareFn leftmost cmpA s) as (E1 & _). rewrite E1 in H2.
    assert (Ex : existsb (fun c' => (cl_att c' =? addTo)%N) (map clauseOf conds) = existsb (fun s' => (sc_att s' =? addTo)%N) conds).
    { clear. induction conds as [|x l IH]; [reflexivity|]. cbn [map existsb]. rewrite IH. destruct (scalar_fields compareFn leftmost cmpA x) as (E1 & _). rewrite E1. reflexivity. }
    rewrite <- Ex. exact H2.
  Qed.
End Scalar.

Theorem scalar_query (K : Type) (compareFn : N -> K -> K -> Z) altOf attrOf cmpA rawSize (dflt : K) useAlt addTo built history ix :
  table_index compareFn altOf attrOf cmpA rawSize dflt useAlt addTo built history ix ->
  let table := rows_now built history in
  forall attach leftmost curKeyOrdering tuplesort junk joinFn canPre estimate sortEnts visit iterate tbmMax,
  sorter tuplesort -> junk_harmless compareFn history ix junk -> (forall f a, joinFn addTo = Some f -> f a a = a) -> sorts_entries useAlt addTo cmpA sortEnts ->
  forall conds, conds <> [] ->
  (forall s, In s conds -> sc_op s = SLess \/ sc_op s = SLessEqual -> forall r e, In r (ever built history) -> In e (row_pairs addTo r) ->
    k_att (fst e) = sc_att s -> k_cat (fst e) = CatNormKey -> compareFn (sc_att s) (leftmost (sc_att s)) (k_val (fst e)) <= 0) ->
  (forall s, In s conds -> canPre (sc_att s) = false) ->
  (useAlt = true -> (exists s, In s conds /\ sc_att s = addTo) -> forall s, In s conds -> sc_att s = addTo \/ sc_att s = attach) ->
  (useAlt = true -> forall s r, In s conds -> sc_att s = addTo -> In r table -> r_attach r <> None) ->
  (forall s, In s conds -> sc_att s = addTo -> addTo <> attach) ->
  exists out,
    queryScan dflt addTo attach curKeyOrdering compareFn useAlt cmpA tuplesort junk joinFn canPre estimate sortEnts visit iterate tbmMax ix
      (map (scalarClause compareFn leftmost cmpA) conds) [] = Some out /\
    NoDup (map fst out) /\ (forall p re, In (p, re) out -> re = false) /\
    (forall p, In p (map fst out) <-> exists r, In r table /\ r_tid r = p /\ forall s, In s conds -> scalar_holds compareFn cmpA addTo attach conds r s).
Proof.
  intros Hti table attach leftmost curKeyOrdering tuplesort junk joinFn canPre estimate sortEnts visit iterate tbmMax Ht HJ Hid Hse conds Hne Hlow Hpre Hkind Hnn Hda.
  pose proof (proj1 (ti_columns _ _ _ _ _ _ _ _ _ _ _ Hti)) as HK. pose proof (proj1 (proj2 (ti_columns _ _ _ _ _ _ _ _ _ _ _ Hti))) as HA.
  set (cls := map (scalarClause compareFn leftmost cmpA) conds).
  assert (Hat : forall s, cl_att (scalarClause compareFn leftmost cmpA s) = sc_att s) by (intro s; exact (proj1 (scalar_fields compareFn leftmost cmpA s))).
  assert (Ex : existsb (fun c' => (cl_att c' =? addTo)%N) cls = existsb (fun s' => (sc_att s' =? addTo)%N) conds).
  { unfold cls. clear - Hat. induction conds as [|x l IH]; [reflexivity|]. cbn [map existsb]. rewrite IH, Hat. reflexivity. }
  assert (Hcne : cls <> []) by (unfold cls; destruct conds; [congruence|discriminate]).
  assert (Hqk : query_keys dflt addTo attach curKeyOrdering cls [] = flat_map (requests dflt) (kept addTo attach cls)).
  { unfold query_keys. destruct cls; [congruence|]. cbn [live filter flat_map]. apply app_nil_r. }
  assert (Hqin : forall q, In q (query_keys dflt addTo attach curKeyOrdering cls []) -> exists s, In s conds /\ In q (requests dflt (scalarClause compareFn leftmost cmpA s)) /\
    ((sc_att s =? attach)%N && existsb (fun s' => (sc_att s' =? addTo)%N) conds) = false).
  { intros q Hq. rewrite Hqk in Hq. apply in_flat_map in Hq as (c & Hc & Hq). apply kept_scalar in Hc as (s & Hs & -> & Hk). exists s. auto. }
  assert (Hkne : exists c, In c (kept addTo attach cls)).
  { destruct (existsb (fun s' => (sc_att s' =? addTo)%N) conds) eqn:E.
    - apply existsb_exists in E as (s & Hs & Es). apply N.eqb_eq in Es. exists (scalarClause compareFn leftmost cmpA s). unfold kept. apply filter_In. split; [apply in_map; exact Hs|].
      rewrite Hat, Es. destruct (N.eqb_spec addTo attach) as [E'|]; [exfalso; exact (Hda s Hs Es E')|reflexivity].
    - assert (exists s, In s conds) as (s & Hs) by (destruct conds as [|s l]; [congruence|exists s; left; reflexivity]). exists (scalarClause compareFn leftmost cmpA s). unfold kept. apply filter_In. split; [apply in_map; exact Hs|].
      rewrite Ex, andb_false_r. reflexivity. }
  assert (Hnokey : existsb noKey cls = false).
  { destruct (existsb noKey cls) eqn:E; [|reflexivity]. exfalso. apply existsb_exists in E as (c & Hc & E). apply in_map_iff in Hc as (s & <- & _).
    destruct (scalar_fields compareFn leftmost cmpA s) as (_ & E2 & _ & _ & E5 & v & Ev & _). unfold noKey, modeOf in E. rewrite E2, E5, Ev in E. discriminate. }
  assert (Hcov : covered compareFn dflt addTo attach useAlt curKeyOrdering canPre (ever built history) table cls []).
  { split.
    - intros q Hq. destruct (Hqin q Hq) as (s & Hs & Hr & _). eapply scalar_partial; [exact HK| |exact Hr]. unfold starts_low. specialize (Hlow s Hs).
      assert (Ea : rq_att q = sc_att s) by (destruct (scalar_requests compareFn leftmost cmpA dflt s) as (q' & E & Ea & _); rewrite E in Hr; destruct Hr as [<-|[]]; exact Ea).
      assert (Hlow' : sc_op s = SLess \/ sc_op s = SLessEqual -> forall k, table_key compareFn addTo (ever built history) (rq_att q) k -> compareFn (sc_att s) (leftmost (sc_att s)) k <= 0).
      { intros Ho k (r & e & Hr' & He & E1 & E2 & E3). rewrite Ea in *. eapply (tc_trans _ (HK _)); [exact (Hlow Ho r e Hr' He E1 E2)|lia]. }
      destruct (sc_op s); auto.
    - intros q r Hq _ Hu Hqa Hr. destruct (Hqin q Hq) as (s & Hs & Hq' & _). apply (Hnn Hu s r Hs); [|exact Hr]. destruct (scalar_requests compareFn leftmost cmpA dflt s) as (q' & E & Ea & _). rewrite E in Hq'. destruct Hq' as [<-|[]]. congruence.
    - intros c Hc _. apply in_map_iff in Hc as (s & <- & _). destruct (scalar_fields compareFn leftmost cmpA s) as (_ & _ & _ & _ & E5 & _). unfold modeOf. rewrite E5. reflexivity.
    - intros c Hc E. apply in_map_iff in Hc as (s & <- & Hs). rewrite E. apply (Hda s Hs). rewrite <- Hat. exact E.
    - intro E. contradiction.
    - intro Hu. split; [intros o []|]. cbn [live filter]. exists (existsb (fun s' => (sc_att s' =? addTo)%N) conds). intros c Hc. rewrite app_nil_r in Hc. apply kept_scalar in Hc as (s & Hs & -> & Hk). rewrite Hat.
      destruct (existsb (fun s' => (sc_att s' =? addTo)%N) conds) eqn:E.
      + pose proof E as E'. apply existsb_exists in E' as (s' & Hs' & Es'). apply N.eqb_eq in Es'. destruct (Hkind Hu (ex_intro _ s' (conj Hs' Es')) s Hs) as [H|H]; [rewrite H; apply N.eqb_refl|].
        rewrite andb_true_r in Hk. apply N.eqb_neq in Hk. contradiction.
      + destruct (sc_att s =? addTo)%N eqn:E2; [|reflexivity]. rewrite <- E. symmetry. apply existsb_exists. exists s. auto.
    - intros (H & _). exfalso. destruct Hkne as (c & Hc). specialize (H c Hc). apply kept_scalar in Hc as (s & Hs & -> & _). rewrite Hat, (Hpre s Hs) in H. discriminate. }
  destruct (query_table K compareFn altOf attrOf cmpA rawSize dflt useAlt addTo built history ix Hti attach curKeyOrdering tuplesort junk joinFn canPre estimate sortEnts visit iterate tbmMax Ht HJ Hid Hse cls [] Hcov)
    as (V & out & Hq & HV & Hnd & Hp & Hre). fold table in HV, Hp, Hre. specialize (HV Hnokey).
  exists out. split; [exact Hq|]. split; [exact Hnd|]. split.
  - intros p re Hin. assert (Hin' : In p (map fst out)) by (apply in_map_iff; exists (p, re); auto). apply Hp in Hin' as (r & Hr & <- & _).
    destruct re; [|reflexivity]. exfalso. destruct (proj1 (Hre r true Hr Hin) eq_refl) as (c & Hc & _ & Hw). apply in_map_iff in Hc as (s & <- & _).
    destruct (scalar_fields compareFn leftmost cmpA s) as (_ & _ & E3 & _). rewrite E3 in Hw. discriminate.
  - assert (Hsat : forall r s, In r table -> In s conds -> (satisfies dflt addTo attach (V r) cls r (scalarClause compareFn leftmost cmpA s) <-> scalar_holds compareFn cmpA addTo attach conds r s)).
    { intros r s Hr Hs. unfold satisfies, scalar_holds. rewrite Hat, Ex. destruct (scalar_fields compareFn leftmost cmpA s) as (_ & E2 & E3 & _ & _ & v & Ev & _ & _ & _ & Esub).
      destruct ((sc_att s =? attach)%N && existsb (fun s' => (sc_att s' =? addTo)%N) conds) eqn:Em.
      - unfold attached_holds. rewrite E2, Ev. assert (Hpre' : forall a, qv_sub v a = 0 <-> op_holds (sc_op s) (cmpA a (sc_dat s))).
        { intro a. rewrite Esub. apply prefix_holds; [exact HA|]. destruct (sc_op s); auto. }
        split.
        + intros (_ & _ & a & Ha & H). exists a. split; [exact Ha|]. apply Hpre'. apply H. left. reflexivity.
        + intros (a & Ha & H). split; [reflexivity|]. split; [discriminate|]. exists a. split; [exact Ha|]. intros v' [<-|[]]. apply Hpre'. exact H.
      - unfold holds. rewrite E2, E3. destruct (scalar_requests compareFn leftmost cmpA dflt s) as (q & Er & _). rewrite Er.
        assert (Hqin' : In q (query_keys dflt addTo attach curKeyOrdering cls [])).
        { rewrite Hqk. apply in_flat_map. exists (scalarClause compareFn leftmost cmpA s). split; [|rewrite Er; left; reflexivity]. unfold kept. apply filter_In. split; [apply in_map; exact Hs|]. rewrite Hat, Ex, Em. reflexivity. }
        assert (Hv : V r q <> None <-> exists e, In e (row_pairs addTo r) /\ k_att (fst e) = sc_att s /\ k_cat (fst e) = CatNormKey /\ op_holds (sc_op s) (compareFn (sc_att s) (k_val (fst e)) (sc_key s))).
        { rewrite (shows_some _ _ _ (HV r q Hr Hqin')), infos_some. split; intros (e & He & Ha); exists e; (split; [exact He|]).
          - apply (scalar_asks compareFn HK leftmost cmpA dflt s q (fst e)); [rewrite Er; left; reflexivity|exact Ha].
          - apply (scalar_asks compareFn HK leftmost cmpA dflt s q (fst e)); [rewrite Er; left; reflexivity|exact Ha]. }
        rewrite <- Hv. split; [intros (_ & (q' & [<-|[]] & H) & _); exact H|]. intro H. split; [reflexivity|]. split; [|reflexivity]. exists q. split; [left; reflexivity|exact H]. }
    intro p. rewrite Hp. split; intros (r & Hr & E & H); exists r; (split; [exact Hr|]); (split; [exact E|]).
    + intros s Hs. apply (Hsat r s Hr Hs). apply H. apply in_map. exact Hs.
    + intros c Hc. apply in_map_iff in Hc as (s & <- & Hs). apply (Hsat r s Hr Hs). apply H. exact Hs.
Qed.
