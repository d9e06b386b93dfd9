(** Proofs about ORDER BY distance (C27). *)
From Coq Require Import NArith ZArith Lia List Permutation Sorted Bool Arith.
From Verif Require Import Base Ord OrdProof Codec CodecSpec LeafPage LeafSpec LeafCodec Entries EntriesSpec EntriesProof Bulk BulkSpec BTree BTreeInv BTreeFind PostingTree PostingTreeSpec PostingTreeProof EntryTree EntryTreeProof IndexSpec IndexProof IndexHeap ScanEntry ScanEntryProof TidBitmap Scan ScanSpec ScanRegular ScanFast IndexScan VacTreeSpec VacIndex VacScanSpec LifeSpec LifeProof LifeQuery QuerySpec TreeFound EntryFound IndexScanProof OrderScan OrderSpec.
Import ListNotations.
Local Open Scope Z_scope.

(** ** The current key *)
Section Cur.
  Context {K : Type}.
  Variable compareFn : N -> K -> K -> Z.
  Variable altOf : N -> bool.
  Variable attrOf : N -> attr.
  Variable cmpA : datum -> datum -> Z.
  Variable rawSize : ekey K -> N.
  Hypothesis Hcols : columns_ok compareFn altOf attrOf cmpA.
  Variables (dflt : K) (addTo : N).
  Notation hrow := (@hrow K datum).
  Notation kcmp := (rumCompareAttEntries compareFn).
  Let HK := proj1 Hcols.
  Let KOK : total_cmp kcmp := att_total compareFn HK.
  Variable table : list hrow.
  Hypothesis Hnd : NoDup (map r_tid table).
  Variables (tight c : bool) (ix : @istate K) (G : @ghost (etup K)).
  Hypothesis HI : IInv compareFn altOf attrOf cmpA rawSize tight c ix G.
  Hypothesis Hagree : index_finds compareFn altOf cmpA addTo ix table.
  (** rows that were in the table at some time *)
  Variable ever : list hrow.
  Hypothesis Hever : forall r, In r table -> In r ever.
  Hypothesis Hfrom : keys_from compareFn addTo ix ever.
  Notation cont := (contents (i_entry ix) G).
  Notation tkey q := (table_key compareFn addTo ever (rq_att q)).
  Notation pairs := (flat_map (row_pairs addTo) table).

  Lemma cip_zero p q : rumCompareItemPointers p q =? 0 = true <-> p = q.
  Proof. rewrite Z.eqb_eq. apply cip_eq. Qed.
  Lemma tuple_rows t : In t cont -> exists R, tupleRows ix t = Some R /\ Permutation R (rows_for compareFn addTo (t_key t) table).
  Proof.
    intro Ht. destruct (Hagree (t_key t)) as (r & Hk & Hr). destruct (keyRows_spec compareFn altOf attrOf cmpA rawSize Hcols tight c ix G (t_key t) HI) as [(t' & R & Hin' & Ek & HR & E')|[Hn _]].
    2: { exfalso. apply (Hn t Ht). apply (tc_refl _ KOK). }
    assert (t' = t) as ->.
    { apply (ssorted_unique (ecmp compareFn) (ecmp_total compareFn HK) cont); auto.
      eapply (contents_sorted (ecmp compareFn) (ecmp_total compareFn HK)). exact (X_inv _ _ _ _ _ _ _ _ _ HI). }
    rewrite Hk in E'. injection E' as ->. destruct Hr as (Pr & _). exists R. split; [exact HR|exact Pr].
  Qed.
  Lemma key_tuple e : In e pairs -> exists t, In t cont /\ kcmp (t_key t) (fst e) = 0.
  Proof.
    intro He. destruct (keyRows_spec compareFn altOf attrOf cmpA rawSize Hcols tight c ix G (fst e) HI) as [(t' & R & Hin' & Ek & HR & E')|[Hn E]]; [eauto|].
    exfalso. destruct (Hagree (fst e)) as (r & Hk & Hr). rewrite E in Hk. injection Hk as <-.
    assert (Hin : In (snd e) (rows_for compareFn addTo (fst e) table)).
    { unfold rows_for. apply in_map. apply filter_In. split; [exact He|]. apply Z.eqb_eq. apply (tc_refl _ KOK). }
    unfold index_agrees in *. cbn in Hr. unfold row in *. rewrite Hr in Hin. destruct Hin.
  Qed.
  Lemma curKey_spec q r e : partial_ok compareFn (tkey q) q -> In r table -> In e (row_pairs addTo r) -> asks compareFn q (fst e) = true ->
    exists e', In e' (row_pairs addTo r) /\ k_att (fst e') = rq_att q /\
      let '(k, cat) := curKeyAt dflt compareFn ix q (r_tid r) in
      k_cat (fst e') = cat /\ (cat = CatNormKey -> compareFn (rq_att q) (k_val (fst e')) k = 0).
  Proof.
    intros Hp Hr He Ha. pose proof (asks_att compareFn q _ Ha) as Eatt. assert (Hpr : In e pairs) by (apply in_flat_map; eauto).
    unfold curKeyAt. destruct (isMany q) eqn:Hm.
    - set (k := mkKey (rq_att q) (rq_key q) (rq_cat q)).
      assert (Hn : rq_partial q <> None -> rq_cat q = CatNormKey).
      { intro Hn. unfold asks in Ha. destruct (rq_partial q); [|congruence]. apply andb_true_iff in Ha as [Ha _]. apply andb_true_iff in Ha as [Ha _]. apply andb_true_iff in Ha as [_ Ha].
        apply Z.eqb_eq in Ha. apply (cat_norm _ Ha). }
      destruct (tuplesFrom_spec compareFn altOf attrOf rawSize HK ix G k (X_inv _ _ _ _ _ _ _ _ _ HI)) as (pre & suf & Ec & Et & Hpre & Hsuf). rewrite Et.
      destruct (tuples_spec compareFn altOf attrOf cmpA rawSize Hcols tight c ix G HI) as [_ Hs]. rewrite Ec, map_app in Hs. apply ssorted_app in Hs as (_ & Hs & _).
      assert (Hcol : collectMatch q suf = filter (fun t => asks compareFn q (t_key t)) cont).
      { assert (Hik : forall t, In t (pre ++ suf) -> in_key (tkey q) q (t_key t)).
        { intros t Ht. rewrite <- Ec in Ht. exact (tuple_key compareFn altOf attrOf cmpA rawSize Hcols addTo tight c ix G HI ever Hfrom q t Ht). }
        rewrite (collect_suffix compareFn (tkey q) q suf Hm Hn Hp ltac:(intros; apply Hik; apply in_app_iff; right; assumption) Hs Hsuf).
        rewrite Ec, filter_app, (collect_prefix compareFn HK (tkey q) q pre Hm Hn Hp ltac:(intros; apply Hik; apply in_app_iff; left; assumption) Hpre). reflexivity. }
      rewrite Hcol. destruct (key_tuple e Hpr) as (t & Ht & Et').
      assert (Hat : asks compareFn q (t_key t) = true).
      { rewrite <- Ha. apply (asks_eq compareFn HK (tkey q) q (t_key t) (fst e) Hp); [|exact (pair_key compareFn altOf attrOf cmpA Hcols addTo table ever Hever q e Hpr)|exact Et'].
        exact (tuple_key compareFn altOf attrOf cmpA rawSize Hcols addTo tight c ix G HI ever Hfrom q t Ht). }
      assert (Hh : holdsTid ix (r_tid r) t = true).
      { unfold holdsTid. destruct (tuple_rows t Ht) as (R & -> & P). apply existsb_exists. exists (snd e). split.
        - eapply Permutation_in; [apply Permutation_sym; exact P|]. unfold rows_for. apply in_map. apply filter_In. split; [exact Hpr|]. apply Z.eqb_eq. apply (cmp_sym_eq _ KOK). exact Et'.
        - apply cip_zero. apply (row_pairs_facts addTo r e He). }
      assert (Hne : In t (rev (filter (holdsTid ix (r_tid r)) (filter (fun t => asks compareFn q (t_key t)) cont)))).
      { apply -> in_rev. apply filter_In. split; [apply filter_In; split; assumption|exact Hh]. }
      destruct (rev (filter (holdsTid ix (r_tid r)) _)) as [|t' l] eqn:Er; [destruct Hne|].
      assert (Ht' : In t' (filter (holdsTid ix (r_tid r)) (filter (fun t => asks compareFn q (t_key t)) cont))) by (apply in_rev; rewrite Er; left; reflexivity).
      apply filter_In in Ht' as [Ht' Hh']. apply filter_In in Ht' as [Hc' Ha']. unfold holdsTid in Hh'. destruct (tuple_rows t' Hc') as (R & ER & P). rewrite ER in Hh'.
      apply existsb_exists in Hh' as (y & Hy & Ey). apply cip_zero in Ey. eapply Permutation_in in Hy; [|exact P]. unfold rows_for in Hy. apply in_map_iff in Hy as (e' & <- & He').
      apply filter_In in He' as [He' Ek]. apply Z.eqb_eq in Ek. apply in_flat_map in He' as (r' & Hr' & He').
      assert (r' = r) as ->.
      { apply (tid_row table Hnd); auto. rewrite <- Ey. symmetry. apply (row_pairs_facts addTo r' e' He'). }
      destruct (keq compareFn _ _ Ek) as (E1 & E2 & E3). pose proof (asks_att compareFn q _ Ha') as Ea'.
      exists e'. split; [exact He'|]. split; [exact (eq_trans E1 Ea')|]. split; [exact E2|]. intro Ec'. rewrite <- Ea', <- E1. apply E3. exact (eq_trans E2 Ec').
    - unfold exactTuple. set (k := mkKey (rq_att q) (rq_key q) (rq_cat q)). set (x := mkTup k (PList [])).
      assert (Ek : kcmp (fst e) k = 0).
      { unfold asks in Ha. unfold isMany in Hm. destruct (rq_partial q); [discriminate|]. destruct (rq_cat q) eqn:Eq; try discriminate; apply Z.eqb_eq in Ha; unfold k; try rewrite Eq; exact Ha. }
      destruct (eFindLeaf_spec compareFn altOf attrOf rawSize HK (i_entry ix) G x (X_inv _ _ _ _ _ _ _ _ _ HI)) as (b & stack & pg & Hfl & Hat & Hg & Hx & Hst).
      rewrite Hfl, Hg in *. pose proof (findpage compareFn altOf attrOf cmpA rawSize Hcols tight c ix G k HI b pg x eq_refl Hat Hg Hx) as Hfp.
      destruct (et_find compareFn (p_items pg) x) as [[|] off].
      + destruct Hfp as (t & Hnn & Hin & Ekt). rewrite Hnn.
        assert (E0 : kcmp (fst e) (t_key t) = 0).
        { apply (cmp_sym_eq _ KOK) in Ek. apply (cmp_sym_eq _ KOK). destruct (Z.lt_trichotomy (kcmp (t_key t) (fst e)) 0) as [L|[L|L]]; [|exact L|].
          - exfalso. pose proof (cmp_eq_l _ KOK _ _ (fst e) Ekt) as Z1. rewrite Ek in Z1. lia.
          - exfalso. pose proof (cmp_eq_l _ KOK _ _ (fst e) Ekt) as Z1. rewrite Ek in Z1. lia. }
        destruct (keq compareFn _ _ E0) as (E1 & E2 & E3). exists e. split; [exact He|]. split; [exact Eatt|]. split; [exact E2|]. intro Ec'. rewrite <- Eatt. apply E3. exact (eq_trans E2 Ec').
      + exfalso. destruct (key_tuple e Hpr) as (t & Ht & Et'). apply (Hfp t Ht).
        destruct (Z.lt_trichotomy (kcmp (t_key t) k) 0) as [L|[L|L]]; [|exact L|]; exfalso; pose proof (cmp_eq_l _ KOK _ _ k Et') as Z1; rewrite Ek in Z1; lia.
  Qed.
End Cur.

(** ** Spreading the current values *)
Section Spread.
  Context {K : Type}.
  Variable addTo : N.
  Notation slot := (@slot K).
  Notation spread := (@spread K addTo).
  Lemma spread_done f (l : list slot) : spread f 0 0 l = l.
  Proof. destruct f, l; reflexivity. Qed.
  Lemma count_app (f : slot -> bool) a b : count f (a ++ b) = (count f a + count f b)%nat.
  Proof. unfold count. rewrite filter_app, app_length. reflexivity. Qed.
  Lemma count_none (f : slot -> bool) l : (forall s, In s l -> f s = false) -> count f l = 0%nat.
  Proof. intro H. unfold count. induction l as [|s l IH]; [reflexivity|]. cbn [filter]. rewrite H by (left; reflexivity). apply IH. intros s' Hs. apply H. right. exact Hs. Qed.
  Lemma count_ext (f g : slot -> bool) l : (forall s, In s l -> f s = g s) -> count f l = count g l.
  Proof. intro H. unfold count. induction l as [|s l IH]; [reflexivity|]. cbn [filter]. rewrite H by (left; reflexivity). destruct (g s); cbn [length]; rewrite IH; auto; intros; apply H; right; assumption. Qed.
  (** no value to spread *)
  Lemma spread_null : forall f na (l : list slot), (forall s, In s l -> sl_att s = addTo -> sl_outer s = None) -> spread f na 0 l = l.
  Proof.
    induction f as [|f IH]; intros na l H; [reflexivity|]. destruct l as [|s r]; [reflexivity|]. cbn [OrderScan.spread].
    destruct ((na =? 0)%nat && (0 =? 0)%nat); [reflexivity|].
    assert (E : (0 <? na)%nat && (sl_att s =? addTo)%N && isSome (sl_outer s) = false).
    { destruct (sl_att s =? addTo)%N eqn:Ea; [|rewrite andb_false_r; reflexivity]. apply N.eqb_eq in Ea. rewrite (H s (or_introl eq_refl) Ea). apply andb_false_r. }
    rewrite E. cbn [Nat.ltb Nat.leb]. rewrite (IH na r) by (intros s' Hs; apply H; right; exact Hs). destruct (sl_ent s); reflexivity.
  Qed.
  (** the attached value *)
  Lemma spread_outer a rest s : sl_att s = addTo -> sl_outer s = Some a -> forall pre f,
    (forall s', In s' pre -> sl_att s' = addTo -> sl_outer s' = None) -> (length (pre ++ s :: rest) <= f)%nat ->
    spread f (count wantsOuter rest) 0 (pre ++ s :: rest) = pre ++ s :: map (setOuter (Some a)) rest.
  Proof.
    intros Ea Eo. induction pre as [|s' pre IH]; intros f Hpre Hf.
    - destruct f; [cbn in Hf; lia|]. cbn [app OrderScan.spread]. rewrite Ea, N.eqb_refl, Eo. cbn [isSome andb]. destruct (count wantsOuter rest) eqn:En.
      + cbn [Nat.eqb andb]. f_equal. symmetry. rewrite <- (map_id rest) at 2. apply map_ext_in. intros t Ht. unfold setOuter. destruct (wantsOuter t) eqn:Ew; [|reflexivity]. exfalso.
        unfold count in En. apply length_zero_iff_nil in En. assert (Hin : In t (filter wantsOuter rest)) by (apply filter_In; auto). rewrite En in Hin. destruct Hin.
      + rewrite Nat.sub_diag. cbn [Nat.eqb Nat.ltb Nat.leb andb]. rewrite spread_done. reflexivity.
    - destruct f; [cbn in Hf; lia|]. cbn [app OrderScan.spread]. destruct ((count wantsOuter rest =? 0)%nat && (0 =? 0)%nat) eqn:E0.
      + apply andb_true_iff in E0 as [E0 _]. apply Nat.eqb_eq in E0. f_equal. f_equal. f_equal. symmetry. rewrite <- (map_id rest) at 2. apply map_ext_in. intros t Ht. unfold setOuter. destruct (wantsOuter t) eqn:Ew; [|reflexivity]. exfalso.
        unfold count in E0. apply length_zero_iff_nil in E0. assert (Hin : In t (filter wantsOuter rest)) by (apply filter_In; auto). rewrite E0 in Hin. destruct Hin.
      + assert (E : (0 <? count wantsOuter rest)%nat && (sl_att s' =? addTo)%N && isSome (sl_outer s') = false).
        { destruct (sl_att s' =? addTo)%N eqn:Ea'; [|rewrite andb_false_r; reflexivity]. apply N.eqb_eq in Ea'. rewrite (Hpre s' (or_introl eq_refl) Ea'). apply andb_false_r. }
        rewrite E. cbn [Nat.ltb Nat.leb]. cbn in Hf. rewrite (IH f) by (try lia; intros t Ht; apply Hpre; right; exact Ht). destruct (sl_ent s'); reflexivity.
  Qed.
  (** the current key *)
  Lemma spread_cur c rest s : sl_ent s = Some c -> forall pre f,
    (forall s', In s' pre -> sl_ent s' = None) -> (length (pre ++ s :: rest) <= f)%nat ->
    spread f 0 (count sl_key rest) (pre ++ s :: rest) = pre ++ s :: map (setCur c) rest.
  Proof.
    assert (Hid : forall rest : list slot, count sl_key rest = 0%nat -> map (setCur c) rest = rest).
    { intros l E0. rewrite <- (map_id l) at 2. apply map_ext_in. intros t Ht. unfold setCur. destruct (sl_key t) eqn:Ew; [|reflexivity]. exfalso.
      unfold count in E0. apply length_zero_iff_nil in E0. assert (Hin : In t (filter (@sl_key K) l)) by (apply filter_In; auto). rewrite E0 in Hin. destruct Hin. }
    intros Ee. induction pre as [|s' pre IH]; intros f Hpre Hf.
    - destruct f; [cbn in Hf; lia|]. cbn [app OrderScan.spread Nat.eqb andb Nat.ltb Nat.leb]. rewrite Ee. destruct (count sl_key rest) eqn:En.
      + cbn [Nat.eqb]. f_equal. symmetry. apply Hid. exact En.
      + rewrite Nat.sub_diag. cbn [Nat.eqb]. rewrite spread_done. reflexivity.
    - destruct f; [cbn in Hf; lia|]. cbn [app OrderScan.spread Nat.eqb andb Nat.ltb Nat.leb]. destruct (count sl_key rest =? 0)%nat eqn:E0.
      + apply Nat.eqb_eq in E0. rewrite (Hid rest E0). reflexivity.
      + rewrite (Hpre s' (or_introl eq_refl)). cbn in Hf. rewrite (IH f) by (try lia; intros t Ht; apply Hpre; right; exact Ht). reflexivity.
  Qed.
End Spread.

Section Slots.
  Context {K D : Type}.
  Variables (addTo attach : N) (curKeyOrdering : N -> bool).
  Notation slot := (@slot K).
  Notation ordering := (ordering K D).
  Notation useAdd := (@useAdd K D attach).
  Notation useCur := (@useCur K D attach curKeyOrdering).
  Notation orderSlot := (@orderSlot K D addTo attach curKeyOrdering).
  Notation oslots os curs := (map (fun oc => orderSlot (fst oc) (snd oc)) (combine os curs)).
  Definition slot_ok (v : option datum) (c : K * category) (o : ordering) (s : slot) : Prop :=
    sl_add s = useAdd o /\ sl_key s = useCur o /\ (useAdd o = true -> sl_outer s = v) /\ (useCur o = true -> sl_cur s = c).
  Lemma oslots_in (os : list ordering) curs s : In s (oslots os curs) -> exists o cur, In o os /\ s = orderSlot o cur.
  Proof. intro H. apply in_map_iff in H as ([o cur] & <- & H). apply in_combine_l in H. exists o, cur. auto. Qed.
  Lemma oslots_ok (f : slot -> slot) v c : (forall o cur, slot_ok v c o (f (orderSlot o cur))) -> forall (os : list ordering) curs, length curs = length os ->
    Forall2 (slot_ok v c) os (map f (oslots os curs)).
  Proof.
    intros H. induction os as [|o os IH]; intros [|cur curs] E; cbn in *; try discriminate; constructor; [apply H|]. apply IH. lia.
  Qed.
  Lemma oslots_ok_in (f : slot -> slot) v c (os : list ordering) : (forall o cur, In o os -> slot_ok v c o (f (orderSlot o cur))) -> forall curs, length curs = length os ->
    Forall2 (slot_ok v c) os (map f (oslots os curs)).
  Proof.
    induction os as [|o os IH]; intros H [|cur curs] E; cbn in *; try discriminate; constructor; [apply H; left; reflexivity|]. apply IH; [|lia]. intros; apply H; right; assumption.
  Qed.
  Lemma skipn_exact {T} (a b : list T) : skipn (length a) (a ++ b) = b.
  Proof. induction a; [reflexivity|exact IHa]. Qed.
  Lemma count_oslots (f : slot -> bool) g (os : list ordering) curs : (forall o cur, f (orderSlot o cur) = g o) -> length curs = length os ->
    count f (oslots os curs) = length (filter g os).
  Proof.
    intros H. revert curs. induction os as [|o os IH]; intros [|cur curs] E; cbn in *; try discriminate; [reflexivity|]. unfold count in *. cbn [map filter fst snd]. rewrite H.
    destruct (g o); cbn [length]; rewrite IH by lia; reflexivity.
  Qed.
  Lemma slots_spec S (os : list ordering) curs v c : length curs = length os ->
    (forall s, In s S -> sl_add s = false /\ sl_key s = false) ->
    (* no ordering by key beside one by the attached value *)
    (forall o o', In o os -> In o' os -> useAdd o = true -> useCur o' = true -> False) ->
    ((exists o, In o os /\ useAdd o = true) ->
      (forall s, In s S -> sl_att s = addTo -> sl_outer s = v) /\ (exists s, In s S /\ sl_att s = addTo) /\
      (v = None -> forall o, In o os -> useAdd o = false -> cl_att (od_clause o) <> addTo)) ->
    ((exists o, In o os /\ useCur o = true) ->
      exists pre s post, S = pre ++ s :: post /\ sl_ent s = Some c /\ forall s', In s' pre -> sl_ent s' = None) ->
    Forall2 (slot_ok v c) os (skipn (length S) (spreadAll addTo (S ++ oslots os curs))).
  Proof.
    intros Hl HS Hx HA HC. unfold spreadAll. set (O := oslots os curs).
    assert (Hna : count (@sl_add K) (S ++ O) = length (filter useAdd os)).
    { rewrite count_app, (count_none _ S) by (intros s Hs; apply HS; exact Hs). apply (count_oslots _ useAdd); [reflexivity|exact Hl]. }
    assert (Hnk : count (@sl_key K) (S ++ O) = length (filter useCur os)).
    { rewrite count_app, (count_none _ S) by (intros s Hs; apply HS; exact Hs). apply (count_oslots _ useCur); [reflexivity|exact Hl]. }
    rewrite Hna, Hnk. destruct (filter useAdd os) as [|oa la] eqn:Ea; destruct (filter useCur os) as [|ok lk] eqn:Ek.
    - cbn [length]. rewrite spread_done, skipn_exact. rewrite <- (map_id O). apply oslots_ok_in; [|exact Hl]. intros o cur Ho. split; [reflexivity|]. split; [reflexivity|].
      split; intro H; exfalso.
      + assert (Hin : In o (filter useAdd os)) by (apply filter_In; auto). rewrite Ea in Hin. destruct Hin.
      + assert (Hin : In o (filter useCur os)) by (apply filter_In; auto). rewrite Ek in Hin. destruct Hin.
    - assert (Hok : In ok os /\ useCur ok = true) by (apply filter_In; rewrite Ek; left; reflexivity). destruct (HC (ex_intro _ ok Hok)) as (pre & s & post & -> & Es & Hpre).
      replace (length (@nil ordering)) with 0%nat by reflexivity. rewrite <- Ek.
      assert (E : length (filter useCur os) = count (@sl_key K) (post ++ O)).
      { rewrite count_app, (count_none _ post) by (intros s' Hs; apply HS; apply in_app_iff; right; right; exact Hs). symmetry. apply (count_oslots _ useCur); [reflexivity|exact Hl]. }
      rewrite E. rewrite <- app_assoc. cbn [app]. rewrite (spread_cur addTo c (post ++ O) s Es pre) by (auto; rewrite !app_length; cbn; rewrite app_length; lia).
      rewrite map_app. replace (pre ++ s :: map (setCur c) post ++ map (setCur c) O) with ((pre ++ s :: map (setCur c) post) ++ map (setCur c) O) by (rewrite <- app_assoc; reflexivity).
      replace (length (pre ++ s :: post)) with (length (pre ++ s :: map (setCur c) post)) by (rewrite !app_length; cbn; rewrite map_length; reflexivity).
      rewrite skipn_exact. apply oslots_ok_in; [|exact Hl]. intros o cur Ho. unfold setCur, OrderScan.orderSlot. cbn [sl_key sl_add sl_att sl_outer sl_ent].
      destruct (useCur o) eqn:Eu; (split; [reflexivity|]); (split; [exact (eq_sym Eu)|]); cbn [sl_outer sl_cur]; (split; [|intro H; try discriminate; reflexivity || congruence]).
      + intro H. exfalso. assert (Hin : In o (filter useAdd os)) by (apply filter_In; auto). rewrite Ea in Hin. destruct Hin.
      + intro H. exfalso. assert (Hin : In o (filter useAdd os)) by (apply filter_In; auto). rewrite Ea in Hin. destruct Hin.
    - assert (Hoa : In oa os /\ useAdd oa = true) by (apply filter_In; rewrite Ea; left; reflexivity). destruct (HA (ex_intro _ oa Hoa)) as (Hv & (s1 & Hs1 & Es1) & Hnull).
      replace (length (@nil ordering)) with 0%nat by reflexivity. rewrite <- Ea.
      assert (Hnoc : forall o, In o os -> useCur o = true -> False).
      { intros o Ho H. assert (Hin : In o (filter useCur os)) by (apply filter_In; auto). rewrite Ek in Hin. destruct Hin. }
      destruct v as [a|].
      + assert (Hsplit : exists pre s post, S = pre ++ s :: post /\ sl_att s = addTo /\ forall s', In s' pre -> sl_att s' <> addTo).
        { clear - Hs1 Es1. induction S as [|s S IH]; [destruct Hs1|]. destruct (N.eq_dec (sl_att s) addTo) as [E|E]; [exists [], s, S; split; [reflexivity|split; [exact E|intros s' []]]|].
          destruct Hs1 as [->|Hs1]; [contradiction|]. destruct (IH Hs1) as (pre & s' & post & -> & E1 & E2). exists (s :: pre), s', post. split; [reflexivity|]. split; [exact E1|].
          intros t [<-|Ht]; auto. }
        destruct Hsplit as (pre & s & post & -> & Es & Hpre).
        assert (E : length (filter useAdd os) = count (@wantsOuter K) (post ++ O)).
        { rewrite count_app, (count_none _ post) by (intros s' Hs; unfold wantsOuter; rewrite (proj1 (HS s' ltac:(apply in_app_iff; right; right; exact Hs))); reflexivity).
          symmetry. apply (count_oslots _ useAdd); [|exact Hl]. intros o cur. unfold wantsOuter, OrderScan.orderSlot. cbn [sl_add sl_outer]. destruct (useAdd o); reflexivity. }
        rewrite E. rewrite <- app_assoc. cbn [app].
        rewrite (spread_outer addTo a (post ++ O) s Es (Hv s ltac:(apply in_app_iff; right; left; reflexivity) Es) pre) by (try (intros s' Hs' Ea'; exfalso; exact (Hpre s' Hs' Ea')); rewrite !app_length; cbn; rewrite app_length; lia).
        rewrite map_app. replace (pre ++ s :: map (setOuter (Some a)) post ++ map (setOuter (Some a)) O) with ((pre ++ s :: map (setOuter (Some a)) post) ++ map (setOuter (Some a)) O) by (rewrite <- app_assoc; reflexivity).
        replace (length (pre ++ s :: post)) with (length (pre ++ s :: map (setOuter (Some a)) post)) by (rewrite !app_length; cbn; rewrite map_length; reflexivity).
        rewrite skipn_exact. apply oslots_ok_in; [|exact Hl]. intros o cur Ho. unfold setOuter, wantsOuter, OrderScan.orderSlot. cbn [sl_key sl_add sl_att sl_outer sl_ent].
        destruct (useAdd o) eqn:Eu; cbn [isSome andb negb]; (split; [exact (eq_sym Eu)|]); (split; [reflexivity|]); cbn [sl_outer sl_cur]; (split; [intro H; congruence || reflexivity|intro H; exfalso; eapply Hnoc; eauto]).
      + rewrite spread_null.
        * rewrite skipn_exact. rewrite <- (map_id O). apply oslots_ok_in; [|exact Hl]. intros o cur Ho. unfold OrderScan.orderSlot, slot_ok. cbn [sl_add sl_key sl_outer sl_cur]. split; [reflexivity|]. split; [reflexivity|].
          split; [intro H; rewrite H; reflexivity|]. intro H. exfalso. eapply Hnoc; eauto.
        * intros s Hs Es. apply in_app_iff in Hs as [Hs|Hs]; [apply Hv; assumption|]. apply oslots_in in Hs as (o & cur & Ho & ->). unfold OrderScan.orderSlot in *. cbn [sl_att sl_outer] in *.
          destruct (useAdd o) eqn:Eu; [reflexivity|]. exfalso. unfold orderAtt in Es. unfold OrderScan.useAdd in Eu. rewrite Eu in Es. exact (Hnull eq_refl o Ho Eu Es).
    - exfalso. assert (Hoa : In oa os /\ useAdd oa = true) by (apply filter_In; rewrite Ea; left; reflexivity). assert (Hok : In ok os /\ useCur ok = true) by (apply filter_In; rewrite Ek; left; reflexivity).
      destruct Hoa, Hok. eapply Hx; eauto.
  Qed.
End Slots.

(** ** The sort *)
Section Sort.
  Context {D : Type}.
  Variable dcmp : D -> D -> Z.
  Hypothesis OK : total_cmp dcmp.
  Notation ctr := (comparetup_rum dcmp).
  Notation lex_le := (lex_le dcmp).
  Lemma ctr_lex : forall a b, length a = length b -> (ctr a b <= 0 <-> lex_le a b).
  Proof.
    induction a as [|x a IH]; intros [|y b] E; cbn in E; try discriminate; [cbn; split; auto; lia|]. cbn [comparetup_rum OrderSpec.lex_le].
    destruct (Z.ltb_spec (dcmp x y) 0); [split; [left; lia|lia]|]. destruct (Z.ltb_spec 0 (dcmp x y)); [split; [lia|intros [?|[? _]]; lia]|].
    rewrite IH by lia. split; [right; split; [lia|assumption]|intros [?|[_ ?]]; [lia|assumption]].
  Qed.
  Lemma lex_refl : forall a, lex_le a a.
  Proof. induction a; cbn; [exact I|]. right. split; [apply (tc_refl _ OK)|assumption]. Qed.
  Lemma lex_total : forall a b, length a = length b -> lex_le a b \/ lex_le b a.
  Proof.
    induction a as [|x a IH]; intros [|y b] E; cbn in E; try discriminate; [left; exact I|]. cbn. destruct (Z.lt_trichotomy (dcmp x y) 0) as [L|[L|L]]; [left; left; exact L| |].
    - destruct (IH b ltac:(lia)); [left; right; auto|right; right; split; [apply (cmp_sym_eq _ OK); exact L|assumption]].
    - right. left. apply (cmp_gt_lt _ OK). exact L.
  Qed.
  Lemma lex_trans : forall a b c, lex_le a b -> lex_le b c -> lex_le a c.
  Proof.
    induction a as [|x a IH]; intros [|y b] [|z c]; cbn; try tauto. intros [H1|[H1 H1']] [H2|[H2 H2']].
    - left. exact (cmp_lt_trans _ OK _ _ _ H1 H2).
    - left. apply (cmp_gt_lt _ OK). pose proof (cmp_eq_l _ OK _ _ x H2) as E. pose proof (cmp_lt_gt _ OK _ _ H1). lia.
    - left. pose proof (cmp_eq_l _ OK _ _ z H1) as E. lia.
    - right. split; [|eapply IH; eauto]. pose proof (cmp_eq_l _ OK _ _ z H1) as E. lia.
  Qed.
  Lemma gettuples_id : forall (l : list (@sitem D)) prev, NoDup (prev :: map (fun s => fst (fst s)) l) -> gettuples prev l = l.
  Proof.
    induction l as [|s l IH]; intros prev H; [reflexivity|]. cbn [gettuples map] in *. apply NoDup_cons_iff in H as [H1 H2].
    destruct (rumCompareItemPointers prev (fst (fst s)) =? 0) eqn:E; [exfalso; apply H1; left; symmetry; apply cip_eq; apply Z.eqb_eq; exact E|]. f_equal. apply IH. exact H2.
  Qed.
End Sort.

(** ** The whole query *)
(** Swapping the operands swaps the outcome. *)
Lemma ctr_anti {D : Type} (dcmp : D -> D -> Z) : total_cmp dcmp -> forall a b, comparetup_rum dcmp a b < 0 <-> 0 < comparetup_rum dcmp b a.
Proof.
  intro OK. induction a as [|x a IH]; intros [|y b]; cbn [comparetup_rum]; try lia. cbv zeta.
  pose proof (tc_anti _ OK x y). pose proof (tc_anti _ OK y x). specialize (IH b).
  destruct (Z.ltb_spec (dcmp x y) 0), (Z.ltb_spec (dcmp y x) 0), (Z.ltb_spec 0 (dcmp x y)), (Z.ltb_spec 0 (dcmp y x)); lia.
Qed.
Section Whole.
  Context {K D : Type}.
  Variable compareFn : N -> K -> K -> Z.
  Variable altOf : N -> bool.
  Variable attrOf : N -> attr.
  Variable cmpA : datum -> datum -> Z.
  Variable rawSize : ekey K -> N.
  Hypothesis Hcols : columns_ok compareFn altOf attrOf cmpA.
  Variables (dflt : K) (useAlt : bool) (addTo attach : N) (curKeyOrdering : N -> bool).
  Hypothesis HaltOf : forall n, altOf n = altAt addTo useAlt n.
  Variable tuplesort : (row -> row -> Z) -> list row -> list row.
  Hypothesis Hsort : sorter tuplesort.
  Variable junk : qreq K -> row.
  Variable joinFn : joins datum.
  Hypothesis Hidem : forall f a, joinFn addTo = Some f -> f a a = a.
  Variables (canPre : N -> bool) (estimate : @istate K -> qreq K -> N) (sortEnts : list (entry datum) -> list nat).
  Hypothesis HsortEnts : forall ents, Permutation (sortEnts ents) (seq 0 (length ents)) /\
    StronglySorted (fun a b => 0 <= cmpEntries useAlt addTo cmpA (ent ents a) (ent ents b)) (sortEnts ents).
  Variables (visit : tbm -> list N) (iterate : list (N * pentry) -> list (N * pentry)) (tbmMax : N).
  Notation hrow := (@hrow K datum).
  Variable table : list hrow.
  Hypothesis Hnd : NoDup (map r_tid table).
  Hypothesis Hoff : forall r, In r table -> off (r_tid r) <> 0%N.
  Variables (tight cpl : bool) (ix : @istate K) (G : @ghost (etup K)).
  Hypothesis HI : IInv compareFn altOf attrOf cmpA rawSize tight cpl ix G.
  Hypothesis Hagree : index_finds compareFn altOf cmpA addTo ix table.
  Variable ever : list hrow.
  Hypothesis Hever : forall r, In r table -> In r ever.
  Hypothesis Hfrom : keys_from compareFn addTo ix ever.
  Hypothesis Hjunk : forall q, junk_fine compareFn ix q (junk q).
  Variables (dcmp : D -> D -> Z) (dinf : D).
  Hypothesis DOK : total_cmp dcmp.
  Variable sortItems : (@sitem D -> @sitem D -> Z) -> list (@sitem D) -> list (@sitem D).
  Hypothesis Hsi : sorts_items sortItems.
  Notation kspec := (@kspec K).
  Notation reqs ks := (flat_map kp_reqs ks).
  Notation ordering := (ordering K D).
  Notation seen := (IndexScanProof.seen compareFn cmpA useAlt addTo tuplesort junk joinFn ix).
  Notation foundRows := (IndexScanProof.foundRows compareFn cmpA useAlt addTo tuplesort junk joinFn ix).
  Notation view_ok := (IndexScanProof.view_ok compareFn cmpA useAlt addTo tuplesort junk joinFn ix).
  Notation scanViews := (IndexScanProof.scanViews cmpA useAlt addTo joinFn canPre sortEnts visit iterate tbmMax).
  Notation key_holds := (IndexScanProof.key_holds compareFn cmpA useAlt addTo tuplesort junk joinFn ix).
  Notation bare := (bare attach curKeyOrdering).
  Notation orderKey := (orderKey dflt addTo attach curKeyOrdering).
  Notation distance_of := (@distance_of K D dinf addTo attach curKeyOrdering).
  Notation keyed := (@keyed K D attach curKeyOrdering).
  Notation lives := (@lives K D).

  Lemma numbered_app (a b : list kspec) : forall n, numbered n (a ++ b) = numbered n a ++ numbered (n + length (reqs a)) b.
  Proof. induction a as [|s a IH]; intro n; cbn [app numbered flat_map]; [rewrite Nat.add_0_r; reflexivity|]. rewrite IH, app_length, Nat.add_assoc. reflexivity. Qed.
  Lemma numbered_length (a : list kspec) : forall n, length (numbered n a) = length a.
  Proof. induction a as [|s a IH]; intro n; cbn [numbered length]; [reflexivity|]. rewrite IH. reflexivity. Qed.
  Lemma lives_clauses (orders : list ordering) : filter (fun o => negb (noKey o)) (map od_clause orders) = map od_clause (lives orders).
  Proof. unfold OrderSpec.lives. induction orders as [|o l IH]; [reflexivity|]. cbn [map filter]. rewrite IH. destruct (noKey (od_clause o)); reflexivity. Qed.
  (** what an ordering's query keys show *)
  Definition key_ok (ks : list kspec) (r : hrow) (re : bool) (ents : list (entry datum)) (o : ordering) (k : skey datum) : Prop :=
    bare (od_clause o) = false -> re = false ->
    firstn (length (cl_vals (od_clause o))) (checkAt ents k (r_tid r)) = map (fun v => seen r (reqOf (cl_att (od_clause o)) v)) (cl_vals (od_clause o)).
  Lemma order_keys ws (KC : list kspec) (os : list ordering) (r : hrow) re ents :
    let ks := KC ++ map (orderKey ws) (map od_clause os) in
    (re = false -> forall k, In k (numbered 0 ks) -> sk_order k = true -> checkAt ents k (r_tid r) = sees (map foundRows (reqs ks)) k (r_tid r)) ->
    Forall2 (key_ok ks r re ents) os (skipn (length KC) (numbered 0 ks)).
  Proof.
    intros ks H. unfold ks. rewrite numbered_app. rewrite <- (numbered_length KC 0) at 1. rewrite skipn_exact. fold ks. cbn [Nat.add].
    assert (Hgen : forall os' l1, ks = l1 ++ map (orderKey ws) (map od_clause os') -> Forall2 (key_ok ks r re ents) os' (numbered (length (reqs l1)) (map (orderKey ws) (map od_clause os')))).
    { induction os' as [|o os' IH]; intros l1 E; cbn [map numbered]; constructor.
      - intros Eb Er. cbn [map] in E. assert (Hin : In (kp_key (orderKey ws (od_clause o)) (seq (length (reqs l1)) (length (kp_reqs (orderKey ws (od_clause o)))))) (numbered 0 ks)).
        { apply numbered_in. exists l1, (orderKey ws (od_clause o)), (map (orderKey ws) (map od_clause os')). split; [exact E|reflexivity]. }
        rewrite (H Er _ Hin eq_refl). rewrite E at 1. rewrite (sees_key foundRows l1 _ _ _ (r_tid r) (proj1 (order_ok dflt addTo attach curKeyOrdering ws (od_clause o))) eq_refl).
        unfold IndexScan.orderKey. cbn [kp_reqs]. rewrite Eb. rewrite user_part. reflexivity.
      - specialize (IH (l1 ++ [orderKey ws (od_clause o)])). rewrite flat_map_app, app_length in IH. cbn [flat_map] in IH. rewrite app_nil_r in IH. apply IH. rewrite <- app_assoc. exact E. }
    exact (Hgen os KC eq_refl).
  Qed.
  Lemma ds_spec (r : hrow) re ents ks v c p (os : list ordering) : p = r_tid r -> v = r_attach r ->
    (forall o, In o os -> useCur attach curKeyOrdering o = true -> exists e, In e (row_pairs addTo r) /\ k_att (fst e) = cl_att (od_clause o) /\
       match snd c with CatNormKey => od_curkey o (fst c) | _ => dinf end = match k_cat (fst e) with CatNormKey => od_curkey o (k_val (fst e)) | _ => dinf end) ->
    forall slots keys, Forall2 (slot_ok attach curKeyOrdering v c) os slots -> Forall2 (key_ok ks r re ents) os keys ->
    Forall2 (fun o d => (keyed o = true -> re = false) -> distance_of (seen r) r o d) os
      (map (fun t => keyGetOrdering dinf (fst (fst t)) (snd (fst t)) (snd t) ents p) (combine (combine os slots) keys)).
  Proof.
    intros -> Ev Hcur. induction os as [|o os IH]; intros slots keys H1 H2; inversion H1 as [|? s ? sl Hs Hsl]; inversion H2 as [|? k ? kl Hk Hkl]; subst; cbn [combine map fst snd]; constructor.
    - intro Hre. destruct Hs as (E1 & E2 & E3 & E4). unfold OrderSpec.distance_of, keyGetOrdering. rewrite E1. unfold useCur in E2, E4. unfold useAdd in *.
      destruct (cl_att (od_clause o) =? attach)%N eqn:Ea; [rewrite (E3 eq_refl); reflexivity|]. cbn [negb andb] in *. rewrite E2. destruct (curKeyOrdering (cl_att (od_clause o))) eqn:Ec.
      + rewrite (E4 eq_refl). destruct (Hcur o (or_introl eq_refl)) as (e & He & Eat & Ed); [unfold useCur, useAdd; rewrite Ea; exact Ec|]. exists e. split; [exact He|]. split; [exact Eat|exact Ed].
      + assert (Eb : bare (od_clause o) = false) by (unfold IndexScan.bare; rewrite Ea, Ec; reflexivity). rewrite (Hk Eb); [reflexivity|]. apply Hre. unfold OrderSpec.keyed. rewrite Eb. reflexivity.
    - apply IH; [|exact Hsl|exact Hkl]. intros o' Ho'. apply Hcur. right. exact Ho'.
  Qed.
  (** the slots of the conditions *)
  Notation searchSlots := (searchSlots dflt compareFn ix).
  Lemma searchSlots_map : forall (KC : list kspec) wanted p outers, length outers = length KC ->
    (forall s, In s (searchSlots wanted p KC outers) -> sl_add s = false /\ sl_key s = false) /\
    map (fun s => (sl_att s, sl_outer s)) (searchSlots wanted p KC outers) = combine (map kp_att KC) outers.
  Proof.
    induction KC as [|k KC IH]; intros wanted p [|o outers] E; cbn in E; try discriminate; [split; [intros s []|reflexivity]|].
    destruct (IH (filter (fun a => negb (a =? kp_att k)%N) wanted) p outers ltac:(lia)) as [I1 I2]. cbn [OrderScan.searchSlots]. split.
    - intros s [<-|Hs]; [split; reflexivity|apply I1; exact Hs].
    - cbn [map combine]. rewrite I2. reflexivity.
  Qed.
  Lemma searchSlots_cur a q p : forall (pre : list kspec) k post outers wanted, length outers = length (pre ++ k :: post) -> In a wanted -> (forall b, In b wanted -> b = a) ->
    (forall k', In k' pre -> kp_att k' <> a) -> kp_att k = a -> kp_reqs k = [q] ->
    exists spre s spost, searchSlots wanted p (pre ++ k :: post) outers = spre ++ s :: spost /\ sl_ent s = Some (curKeyAt dflt compareFn ix q p) /\ forall s', In s' spre -> sl_ent s' = None.
  Proof.
    induction pre as [|k' pre IH]; intros k post outers wanted El Ha Hb Hpre Ek Er.
    - destruct outers as [|o outers]; [discriminate|]. cbn [app OrderScan.searchSlots]. eexists [], _, _. split; [reflexivity|]. split; [|intros s' []]. unfold searchSlot. cbn [sl_ent]. rewrite Er.
      replace (existsb (N.eqb (kp_att k)) wanted) with true; [reflexivity|]. symmetry. apply existsb_exists. exists a. split; [exact Ha|]. rewrite Ek. apply N.eqb_refl.
    - destruct outers as [|o outers]; [discriminate|]. cbn [app OrderScan.searchSlots].
      assert (Ew : filter (fun b => negb (b =? kp_att k')%N) wanted = wanted).
      { apply filter_all. intros b Hb'. rewrite (Hb b Hb'). apply negb_true_iff, N.eqb_neq. intro Eq. apply (Hpre k' (or_introl eq_refl)). symmetry. exact Eq. }
      rewrite Ew. destruct (IH k post outers wanted ltac:(cbn in El; lia) Ha Hb ltac:(intros; apply Hpre; right; assumption) Ek Er) as (spre & s & spost & -> & Es & Hs).
      eexists (_ :: spre), s, spost. split; [reflexivity|]. split; [exact Es|]. intros s' [<-|Hs']; [|apply Hs; exact Hs']. unfold searchSlot. cbn [sl_ent].
      replace (existsb (N.eqb (kp_att k')) wanted) with false; [reflexivity|]. symmetry. apply not_true_iff_false. intro H. apply existsb_exists in H as (b & Hb' & E). apply N.eqb_eq in E.
      rewrite (Hb b Hb') in E. exact (Hpre k' (or_introl eq_refl) E).
  Qed.

  Lemma numbered_combine (KC : list kspec) s k : forall n, In (s, k) (combine KC (numbered n KC)) ->
    exists l1 l2, KC = l1 ++ s :: l2 /\ k = kp_key s (seq (n + length (reqs l1)) (length (kp_reqs s))).
  Proof.
    induction KC as [|s' KC IH]; intros n H; [destruct H|]. cbn [numbered combine] in H. destruct H as [H|H].
    - injection H as <- <-. exists [], KC. split; [reflexivity|]. cbn. rewrite Nat.add_0_r. reflexivity.
    - destruct (IH _ H) as (l1 & l2 & -> & ->). exists (s' :: l1), l2. split; [reflexivity|]. cbn [flat_map]. rewrite app_length, Nat.add_assoc. reflexivity.
  Qed.
  Lemma map_fst_combine {T U} (a : list T) : forall (b : list U), length a = length b -> map fst (combine a b) = a.
  Proof. induction a as [|x a IH]; intros [|y b] E; cbn in *; try discriminate; [reflexivity|]. rewrite IH by lia. reflexivity. Qed.
  Lemma outerOf_const (l : list (option (option datum))) v : (forall o, In o l -> o = None \/ o = Some v) -> (exists o, In o l /\ o <> None) -> outerOf l = v.
  Proof.
    intros H (o & Ho & Hn). assert (Hv : v = None -> outerOf l = None).
    { intros ->. clear Ho. induction l as [|x l IH]; [reflexivity|]. cbn [outerOf]. destruct (H x (or_introl eq_refl)) as [-> | ->]; apply IH; intros; apply H; right; assumption. }
    destruct v as [a|]; [|apply Hv; reflexivity]. clear Hv. induction l as [|x l IH]; [destruct Ho|]. cbn [outerOf]. destruct (H x (or_introl eq_refl)) as [-> | ->]; [|reflexivity].
    destruct Ho as [<-|Ho]; [congruence|]. apply IH; [intros; apply H; right; assumption|exact Ho].
  Qed.
  Lemma condKeys_shape ws (conds : list (clause K)) :
    map (fun s : kspec => (kp_att s, kp_reqs s)) (condKeys dflt addTo attach ws conds) = map (fun c => (cl_att c, requests dflt c)) (kept addTo attach conds).
  Proof.
    assert (Hp : forall l, map (fun s : kspec => (kp_att s, kp_reqs s)) (map (searchKey dflt None ws) l) = map (fun c => (cl_att c, requests dflt c)) l).
    { intro l. rewrite map_map. apply map_ext. reflexivity. }
    assert (Hf : forall subs l, map (fun s : kspec => (kp_att s, kp_reqs s)) (firstAddTo dflt addTo subs ws l) = map (fun c => (cl_att c, requests dflt c)) l).
    { intros subs l. induction l as [|c l IH]; [reflexivity|]. cbn [firstAddTo]. destruct (onAddTo addTo c); cbn [map]; [rewrite Hp|rewrite IH]; reflexivity. }
    unfold condKeys. destruct (movesOn addTo attach conds) eqn:E.
    - rewrite Hf, (kept_moves addTo attach _ E). reflexivity.
    - rewrite Hp, (kept_stays addTo attach _ E). reflexivity.
  Qed.

  Notation orders_covered := (@orders_covered K D compareFn dflt addTo attach curKeyOrdering).
  Lemma item_spec conds (orders : list ordering) :
    covered compareFn dflt addTo attach useAlt curKeyOrdering canPre ever table conds (map od_clause orders) -> orders_covered table conds orders ->
    let os := lives orders in
    let ws := existsb bare (map od_clause os) in
    let KC := match conds with [] => [everyKey dflt ws] | _ => condKeys dflt addTo attach ws conds end in
    let ks := KC ++ map (orderKey ws) (map od_clause os) in
    (forall q, In q (reqs ks) -> valid_req compareFn useAlt addTo table ever q) ->
    forall x re ents keys (r : hrow), view_ok ks (x, re, ents, keys) -> In r table -> ip x = r_tid r ->
    (forall s, In s ks -> sk_order (key0 s) = false -> key_holds s (r_tid r)) ->
    forall curs, length curs = length os ->
    exists c, let slots := OrderScan.searchSlots dflt compareFn ix (map (fun o => cl_att (od_clause o)) (filter (useCur attach curKeyOrdering) os)) (ip x) KC
                             (map (fun kk => ks_outer (snd kk)) (firstn (length KC) keys)) ++
                           map (fun oc => orderSlot addTo attach curKeyOrdering (fst oc) (snd oc)) (combine os curs) in
              let slots' := skipn (length KC) (spreadAll addTo slots) in
              let okeys := map fst (skipn (length KC) keys) in
              Forall2 (slot_ok attach curKeyOrdering (r_attach r) c) os slots' /\
              Forall2 (fun o d => (keyed o = true -> re = false) -> distance_of (seen r) r o d) os
                (map (fun t => keyGetOrdering dinf (fst (fst t)) (snd (fst t)) (snd t) ents (ip x)) (combine (combine os slots') okeys)).
  Proof.
    intros Hcov Hoc os ws KC ks Hval x re ents keys r (Hk1 & Hk2 & Hk3) Hr Ex Hholds curs Hlc.
    set (outers := map (fun kk => ks_outer (snd kk)) (firstn (length KC) keys)).
    set (wanted := map (fun o => cl_att (od_clause o)) (filter (useCur attach curKeyOrdering) os)).
    assert (Hlen : length keys = length ks) by (rewrite <- (map_length fst), Hk1; apply numbered_length).
    assert (Hlo : length outers = length KC).
    { unfold outers. rewrite map_length, firstn_length, Hlen. unfold ks. rewrite app_length. lia. }
    set (S := searchSlots wanted (ip x) KC outers).
    destruct (searchSlots_map KC wanted (ip x) outers Hlo) as [HS1 HS2]. fold S in HS1, HS2.
    assert (HlS : length S = length KC).
    { rewrite <- (map_length (fun s => (sl_att s, sl_outer s))), HS2, combine_length, map_length, Hlo. apply Nat.min_id. }
    (* the condition on a column *)
    assert (Hcol : forall o, In o os -> useCur attach curKeyOrdering o = true -> exists pre k post q, KC = pre ++ k :: post /\ kp_att k = cl_att (od_clause o) /\ kp_reqs k = [q] /\
       (forall k', In k' pre -> kp_att k' <> cl_att (od_clause o))).
    { intros o Ho Hu. unfold useCur, useAdd in Hu. apply andb_true_iff in Hu as [Hu1 Hu2]. apply negb_true_iff, N.eqb_neq in Hu1.
      destruct (oc_key _ _ _ _ _ _ _ _ Hoc o Ho Hu1 Hu2) as ((pre & c & post & Ec & Eatt & Hpre & Hone) & _).
      assert (HKC : KC = condKeys dflt addTo attach ws conds) by (unfold KC; rewrite Ec; destruct pre; reflexivity).
      pose proof (condKeys_shape ws conds) as Hsh. rewrite <- HKC in Hsh.
      assert (Hkept : kept addTo attach conds = filter (fun c' => negb ((cl_att c' =? attach)%N && existsb (fun c2 => (cl_att c2 =? addTo)%N) conds)) pre ++ c ::
         filter (fun c' => negb ((cl_att c' =? attach)%N && existsb (fun c2 => (cl_att c2 =? addTo)%N) conds)) post).
      { unfold kept. replace (filter _ conds) with (filter (fun c' => negb ((cl_att c' =? attach)%N && existsb (fun c2 => (cl_att c2 =? addTo)%N) conds)) (pre ++ c :: post)) by (rewrite <- Ec; reflexivity). rewrite filter_app. cbn [filter]. rewrite Eatt. apply N.eqb_neq in Hu1. rewrite Hu1. reflexivity. }
      rewrite Hkept, map_app in Hsh. apply map_eq_app in Hsh as (l1 & l2 & E1 & E2 & E3). cbn [map] in E3. apply map_eq_cons in E3 as (k & l3 & -> & Ek & _). injection Ek as Ek1 Ek2.
      destruct (requests dflt c) as [|q [|? ?]] eqn:Eq; try discriminate. exists l1, k, l3, q. split; [exact E1|]. split; [congruence|]. split; [exact Ek2|].
      intros k' Hk' Eq'. assert (Hin : In (kp_att k', kp_reqs k') (map (fun s : kspec => (kp_att s, kp_reqs s)) l1)) by (apply (in_map (fun s : kspec => (kp_att s, kp_reqs s)) l1 k'); exact Hk').
      rewrite E2 in Hin. apply in_map_iff in Hin as (c' & Ec' & Hc'). injection Ec' as Ec1 _. apply filter_In in Hc' as [Hc' _]. apply (Hpre c' Hc'). congruence. }
    assert (HK0 : forall s, In s KC -> sk_order (key0 s) = false).
    { intros s Hs. unfold KC in Hs. destruct conds as [|c0 conds']; [destruct Hs as [<-|[]]; reflexivity|]. apply condKeys_in in Hs as (cl & _ & [->|(-> & _)]); reflexivity. }
    assert (Hheld : forall s, In s KC -> key_holds s (r_tid r)).
    { intros s Hs. apply Hholds; [apply in_app_iff; left; exact Hs|apply HK0; exact Hs]. }
    assert (Hseen : forall q, In q (reqs ks) -> (exists y, In y (foundRows q) /\ ip y = r_tid r) -> seen r q <> None).
    { intros q Hq (y & Hy & Ey) E. unfold IndexScanProof.seen in E.
      assert (H : present (foundRows q) (r_tid r) <> None) by (apply present_some; eauto). exact (H E). }
    assert (HKCin : forall s q, In s KC -> In q (kp_reqs s) -> In q (reqs ks)).
    { intros s q Hs Hq. apply in_flat_map. exists s. split; [apply in_app_iff; left; exact Hs|exact Hq]. }
    (* the current key *)
    set (c := match find (useCur attach curKeyOrdering) os with
              | Some o => match find (fun k => (kp_att k =? cl_att (od_clause o))%N) KC with
                          | Some k => match kp_reqs k with q :: _ => curKeyAt dflt compareFn ix q (r_tid r) | [] => (dflt, CatNormKey) end
                          | None => (dflt, CatNormKey) end
              | None => (dflt, CatNormKey) end).
    assert (Hone : forall o o', In o os -> In o' os -> useCur attach curKeyOrdering o = true -> useAdd attach o' = false /\ (useCur attach curKeyOrdering o' = true -> cl_att (od_clause o') = cl_att (od_clause o))).
    { intros o o' Ho Ho' Hu. unfold useCur, useAdd in *. apply andb_true_iff in Hu as [Hu1 Hu2]. apply negb_true_iff, N.eqb_neq in Hu1.
      destruct (oc_one _ _ _ _ _ _ _ _ Hoc o o' Ho Ho' Hu1 Hu2) as [H1 H2]. split; [apply N.eqb_neq; exact H1|]. intro H. apply andb_true_iff in H as [_ H]. auto. }
    assert (Hc : forall o, In o os -> useCur attach curKeyOrdering o = true -> exists pre k post q, KC = pre ++ k :: post /\ kp_att k = cl_att (od_clause o) /\ kp_reqs k = [q] /\
       (forall k', In k' pre -> kp_att k' <> cl_att (od_clause o)) /\ c = curKeyAt dflt compareFn ix q (r_tid r)).
    { intros o Ho Hu. destruct (Hcol o Ho Hu) as (pre & k & post & q & E1 & E2 & E3 & E4). exists pre, k, post, q. repeat (split; [assumption|]). unfold c.
      destruct (find (useCur attach curKeyOrdering) os) as [o1|] eqn:Ef; [|exfalso; pose proof (find_none _ _ Ef o Ho) as F; congruence].
      apply find_some in Ef as [Ho1 Hu1]. destruct (Hone o o1 Ho Ho1 Hu) as [_ H1]. rewrite (H1 Hu1).
      assert (Efk : find (fun k => (kp_att k =? cl_att (od_clause o))%N) KC = Some k).
      { rewrite E1. clear - E2 E4. induction pre as [|k' pre IH]; cbn [app find]; [rewrite E2, N.eqb_refl; reflexivity|].
        destruct (N.eqb_spec (kp_att k') (cl_att (od_clause o))) as [E|_]; [exfalso; exact (E4 k' (or_introl eq_refl) E)|]. apply IH. intros; apply E4; right; assumption. }
      rewrite Efk, E3. reflexivity. }
    assert (Hslots : Forall2 (slot_ok attach curKeyOrdering (r_attach r) c) os
      (skipn (length S) (spreadAll addTo (S ++ map (fun oc => orderSlot addTo attach curKeyOrdering (fst oc) (snd oc)) (combine os curs))))).
    { apply slots_spec; [exact Hlc|exact HS1| | |].
      - intros o o' Ho Ho' Hua Huc. destruct (Hone o' o Ho' Ho Huc) as [H _]. congruence.
      - intros (o & Ho & Hua). pose proof Hua as Hua'. unfold useAdd in Hua'. apply N.eqb_eq in Hua'. destruct (oc_attached _ _ _ _ _ _ _ _ Hoc o Ho Hua') as (ca & Hca & Eca).
        assert (HKC : KC = condKeys dflt addTo attach ws conds) by (unfold KC; destruct conds; [destruct Hca|reflexivity]).
        assert (Hws : ws = true).
        { unfold ws. apply existsb_exists. exists (od_clause o). split; [apply in_map; exact Ho|]. unfold IndexScan.bare. rewrite Hua', N.eqb_refl. reflexivity. }
        assert (Hkca : In ca (kept addTo attach conds)).
        { unfold kept. apply filter_In. split; [exact Hca|]. apply negb_true_iff. apply andb_false_iff. left. apply N.eqb_neq. exact (cov_columns _ _ _ _ _ _ _ _ _ _ _ Hcov ca Hca Eca). }
        assert (Hpair : forall s, In s S -> exists k kk, In (k, fst kk) (combine KC (numbered 0 KC)) /\ In kk keys /\ sl_att s = kp_att k /\ sl_outer s = ks_outer (snd kk)).
        { intros s Hs. assert (Hin : In (sl_att s, sl_outer s) (combine (map kp_att KC) outers)) by (rewrite <- HS2; apply (in_map (fun s => (sl_att s, sl_outer s)) S s); exact Hs).
          assert (Hf : map fst (firstn (length KC) keys) = numbered 0 KC).
          { rewrite <- firstn_map, Hk1. unfold ks. rewrite numbered_app. rewrite <- (numbered_length KC 0) at 1. rewrite firstn_app, Nat.sub_diag, firstn_all. cbn [firstn]. apply app_nil_r. }
          rewrite <- Hf. unfold outers in Hin. revert Hin. generalize (sl_att s) (sl_outer s).
          assert (Hsub : forall kk, In kk (firstn (length KC) keys) -> In kk keys) by (intros kk Hkk; rewrite <- (firstn_skipn (length KC) keys); apply in_app_iff; left; exact Hkk).
          revert Hsub. generalize (firstn (length KC) keys) as fk. clear. induction KC as [|k KC IH]; intros fk Hsub a o H; [destruct H|]. destruct fk as [|kk fk]; [destruct H|]. cbn [map combine] in *.
          destruct H as [H|H]; [injection H as <- <-; exists k, kk; split; [left; reflexivity|]; split; [apply Hsub; left; reflexivity|split; reflexivity]|].
          destruct (IH fk ltac:(intros; apply Hsub; right; assumption) a o H) as (k1 & kk1 & H1 & H2). exists k1, kk1. split; [right; exact H1|exact H2]. }
        split; [|split].
        + intros s Hs Es. destruct (Hpair s Hs) as (k & [kk st] & Hin & Hkk & E1 & E2). cbn [fst snd] in *. rewrite E2.
          assert (HkK : In k KC) by (apply in_combine_l in Hin; exact Hin).
          apply numbered_combine in Hin as (l1 & l2 & EKC & Ekk). cbn [Nat.add] in Ekk.
          assert (Eks : ks = l1 ++ k :: (l2 ++ map (orderKey ws) (map od_clause os))) by (unfold ks; rewrite EKC, <- app_assoc; reflexivity).
          pose proof HkK as HkK'. rewrite HKC in HkK'. apply condKeys_in in HkK' as (cl & Hcl & Hform).
          assert (Ecl : cl_att cl = addTo).
          { rewrite <- Es, E1. destruct Hform as [->|(-> & _)]; reflexivity. }
          assert (Hkform : sk_order kk = false /\ sk_att kk = addTo /\ sk_willSort kk = true).
          { rewrite Ekk. destruct Hform as [->|(-> & _)]; cbn; auto. }
          destruct Hkform as (F1 & F2 & F3). rewrite (Hk3 kk st Hkk F1 F2). unfold newOuter. rewrite F2, N.eqb_refl. cbn [negb]. rewrite F3.
          assert (Eout : outerOf (sees (map foundRows (reqs ks)) kk (ip x)) = r_attach r).
          { rewrite Ekk, Eks, Ex. rewrite (sees_key foundRows l1 k _ _ (r_tid r)); [|destruct Hform as [->|(-> & _)]; apply search_ok|reflexivity].
            apply outerOf_const.
            - intros ov Hov. apply in_map_iff in Hov as (q & <- & Hq).
              apply (seen_attach compareFn altOf attrOf cmpA rawSize Hcols useAlt addTo HaltOf tuplesort Hsort junk joinFn Hidem table Hnd tight cpl ix G HI Hagree ever Hever Hfrom Hjunk q r (Hval q (HKCin k q HkK Hq)) Hr).
              assert (Hrq : In q (requests dflt cl)) by (destruct Hform as [->|(-> & _)]; exact Hq). rewrite (requests_att dflt cl q Hrq). exact Ecl.
            - destruct (Hheld k HkK) as ((q & y & Hq & Hy & Ey) & _). exists (present (foundRows q) (r_tid r)). split; [apply (in_map (fun q => present (foundRows q) (r_tid r))); exact Hq|].
              apply present_some. eauto. }
          destruct (sk_subs kk); exact Eout.
        + destruct (condKeys_all dflt addTo attach ws conds ca Hkca) as (s & Hs & Hform). rewrite <- HKC in Hs.
          assert (Hin : In addTo (map (fun s => sl_att s) S)).
          { assert (E : map (fun s => sl_att s) S = map kp_att KC).
            { assert (E0 : map fst (map (fun s => (sl_att s, sl_outer s)) S) = map kp_att KC).
              { rewrite HS2. apply map_fst_combine. rewrite map_length. symmetry. exact Hlo. }
              rewrite map_map in E0. exact E0. }
            rewrite E. apply in_map_iff. exists s. split; [|exact Hs]. destruct Hform as [->|(-> & _)]; exact Eca. }
          apply in_map_iff in Hin as (sl & E & Hsl). exists sl. auto.
        + intros Ev o' Ho' Hu' Ea'. refine (oc_null _ _ _ _ _ _ _ _ Hoc o o' Ho Ho' Hua' _ Ea' r Hr Ev).
          unfold OrderSpec.keyed, IndexScan.bare. unfold useAdd in Hu'. rewrite Hu'. cbn [orb]. apply negb_true_iff.
          destruct (curKeyOrdering (cl_att (od_clause o'))) eqn:Ec; [|reflexivity]. exfalso.
          assert (Huc : useCur attach curKeyOrdering o' = true) by (unfold useCur, useAdd; rewrite Hu'; exact Ec). destruct (Hone o' o Ho' Ho Huc) as [H _]. congruence.
      - intros (o & Ho & Hu). destruct (Hc o Ho Hu) as (pre & k & post & q & E1 & E2 & E3 & E4 & E5).
        assert (Hw1 : In (cl_att (od_clause o)) wanted) by (unfold wanted; apply in_map_iff; exists o; split; [reflexivity|apply filter_In; auto]).
        assert (Hw2 : forall b, In b wanted -> b = cl_att (od_clause o)).
        { intros b Hb. unfold wanted in Hb. apply in_map_iff in Hb as (o' & <- & Ho'). apply filter_In in Ho' as [Ho' Hu']. apply (Hone o o' Ho Ho' Hu). exact Hu'. }
        destruct (searchSlots_cur (cl_att (od_clause o)) q (ip x) pre k post outers wanted ltac:(rewrite Hlo, E1; reflexivity) Hw1 Hw2 E4 E2 E3) as (spre & s & spost & Es & Hs1 & Hs2).
        exists spre, s, spost. unfold S. rewrite E1 at 1. split; [exact Es|]. split; [rewrite Hs1, E5, Ex; reflexivity|exact Hs2]. }
    exists c. cbv zeta. fold outers wanted S. rewrite <- HlS. split; [exact Hslots|].
    eapply (ds_spec r re ents ks (r_attach r) c (ip x) os Ex eq_refl).
    - intros o Ho Hu. destruct (Hc o Ho Hu) as (pre & k & post & q & E1 & E2 & E3 & E4 & E5).
      assert (HkK : In k KC) by (rewrite E1; apply in_app_iff; right; left; reflexivity).
      assert (Hq : In q (reqs ks)) by (apply (HKCin k); [exact HkK|rewrite E3; left; reflexivity]).
      destruct (Hheld k HkK) as ((q' & y & Hq' & Hy & Ey) & _). rewrite E3 in Hq'. destruct Hq' as [<-|[]].
      assert (Hs : seen r q <> None) by (apply Hseen; eauto).
      pose proof (seen_shows compareFn altOf attrOf cmpA rawSize Hcols useAlt addTo HaltOf tuplesort Hsort junk joinFn Hidem table Hnd tight cpl ix G HI Hagree ever Hever Hfrom Hjunk q r (Hval q Hq) Hr) as Hsh.
      apply (shows_some _ _ _ Hsh) in Hs. apply infos_some in Hs as (e & He & Ha).
      destruct (curKey_spec compareFn altOf attrOf cmpA rawSize Hcols dflt addTo table Hnd tight cpl ix G HI Hagree ever Hever Hfrom q r e (proj1 (Hval q Hq)) Hr He Ha) as (e' & He' & Ea' & Hck).
      rewrite <- E5 in Hck. assert (Erq : rq_att q = cl_att (od_clause o)).
      { assert (Hkk : In (kp_att k, kp_reqs k) (map (fun s : kspec => (kp_att s, kp_reqs s)) KC)) by (apply (in_map (fun s : kspec => (kp_att s, kp_reqs s))); exact HkK).
        rewrite <- E2. unfold KC in Hkk. destruct conds as [|c0 conds'].
        - destruct Hkk as [Hkk|[]]. injection Hkk as Hk1' Hk2'. rewrite E3 in Hk2'. injection Hk2' as <-. rewrite <- Hk1'. reflexivity.
        - rewrite condKeys_shape in Hkk. apply in_map_iff in Hkk as (cl & Ecl & _). injection Ecl as Ec1 Ec2. rewrite <- Ec1. apply (requests_att dflt cl q). rewrite Ec2, E3. left. reflexivity. }
      exists e'. split; [exact He'|]. split; [congruence|]. destruct c as [kc cat]. destruct Hck as [Hc1 Hc2]. cbn [fst snd]. rewrite Hc1. destruct cat; try reflexivity.
      symmetry. pose proof Hu as Hu'. unfold useCur, useAdd in Hu'. apply andb_true_iff in Hu' as [Hu1 Hu2]. apply negb_true_iff, N.eqb_neq in Hu1.
      destruct (oc_key _ _ _ _ _ _ _ _ Hoc o Ho Hu1 Hu2) as (_ & _ & Heq). apply Heq. rewrite <- Erq. apply Hc2. reflexivity.
    - exact Hslots.
    - rewrite <- skipn_map, Hk1, HlS. apply (order_keys ws KC os r re ents). fold ks. rewrite <- Ex. exact Hk2.
  Qed.

  Notation orderedScan := (@orderedScan K D dcmp dinf dflt addTo attach curKeyOrdering compareFn useAlt cmpA tuplesort junk joinFn canPre estimate sortEnts visit iterate tbmMax sortItems).
  Lemma Forall2_len {T U} (R : T -> U -> Prop) a b : Forall2 R a b -> length b = length a.
  Proof. induction 1; cbn; congruence. Qed.
  (** all items *)
  Lemma insertAll_spec (os : list ordering) search nsearch (P : item datum * bool * list (entry datum) * list (skey datum * kst datum) -> list D -> Prop) :
    forall views,
    (forall x re ents keys curs, In (x, re, ents, keys) views -> length curs = length os ->
       let slots := search (ip x) (map (fun kk => ks_outer (snd kk)) (firstn nsearch keys)) ++ map (fun oc => orderSlot addTo attach curKeyOrdering (fst oc) (snd oc)) (combine os curs) in
       let slots' := skipn nsearch (spreadAll addTo slots) in
       length slots' = length os /\
       P (x, re, ents, keys) (map (fun t => keyGetOrdering dinf (fst (fst t)) (snd (fst t)) (snd t) ents (ip x)) (combine (combine os slots') (map fst (skipn nsearch keys))))) ->
    forall curs, length curs = length os ->
    Forall2 (fun v it => fst it = (ip (fst (fst (fst v))), snd (fst (fst v))) /\ P v (snd it)) views (insertAll dinf addTo attach curKeyOrdering os search nsearch views curs).
  Proof.
    induction views as [|[[[x re] ents] keys] views IH]; intros H curs Hl; cbn [insertAll]; constructor.
    - cbn [fst snd]. split; [reflexivity|]. apply (H x re ents keys curs (or_introl eq_refl) Hl).
    - apply IH; [intros; apply H; [right; assumption|assumption]|]. rewrite map_length. apply (H x re ents keys curs (or_introl eq_refl) Hl).
  Qed.

  Theorem order_spec conds (orders : list ordering) :
    covered compareFn dflt addTo attach useAlt curKeyOrdering canPre ever table conds (map od_clause orders) -> orders_covered table conds orders ->
    exists out, orderedScan ix conds orders = Some out /\ NoDup (map (fun s => fst (fst s)) out) /\
      (forall p, In p (map (fun s => fst (fst s)) out) <-> exists r, In r table /\ r_tid r = p /\ forall cl, In cl conds -> satisfies dflt addTo attach (seen r) conds r cl) /\
      (forall r re ds, In r table -> In (r_tid r, re, ds) out ->
         (re = true <-> exists cl, In cl conds /\ wants_recheck addTo attach (seen r) conds cl) /\
         Forall2 (fun o d => (keyed o = true -> re = false) -> distance_of (seen r) r o d) (lives orders) ds) /\
      StronglySorted (fun a b => lex_le dcmp (snd a) (snd b)) out /\
      (existsb noKey conds = false -> forall r q, In r table -> In q (query_keys dflt addTo attach curKeyOrdering conds (map od_clause orders)) -> shows (joinFn (rq_att q)) (infos compareFn addTo r q) (seen r q)).
  Proof.
    intros Hcov Hoc.
    destruct (query_spec compareFn altOf attrOf cmpA rawSize Hcols dflt useAlt addTo attach curKeyOrdering HaltOf tuplesort Hsort junk joinFn Hidem canPre estimate sortEnts HsortEnts visit iterate tbmMax
      table Hnd Hoff tight cpl ix G HI Hagree ever Hever Hfrom Hjunk conds (map od_clause orders) Hcov) as (out0 & Hq & Hnd0 & Hp0 & Hre0 & HV & Hmore).
    destruct (existsb noKey conds) eqn:Enk.
    { unfold OrderScan.orderedScan, queryScan, newScanKeys in *. rewrite Enk in *. apply Some_inj in Hq. subst out0. exists []. split; [reflexivity|]. split; [constructor|]. split; [exact Hp0|].
      split; [intros r re ds _ []|]. split; [constructor|discriminate]. }
    destruct (Hmore eq_refl) as (ks & es & Eks & Ees & Eout & Hviews & Hval & Hheld). clear Hmore.
    unfold OrderScan.orderedScan. rewrite Eks, Ees. fold (lives orders). unfold liveOrders. fold (lives orders). set (os := lives orders) in *.
    fold (scanViews es ks). unfold newScanKeys in Eks. rewrite Enk in Eks. rewrite lives_clauses in Eks. fold os in Eks.
    set (ws := existsb bare (map od_clause os)) in *.
    set (KC := match conds with [] => [everyKey dflt ws] | _ => condKeys dflt addTo attach ws conds end) in *. apply Some_inj in Eks.
    replace (length ks - length os)%nat with (length KC) by (rewrite <- Eks, app_length, !map_length; lia).
    replace (firstn (length KC) ks) with KC by (rewrite <- Eks, firstn_app, Nat.sub_diag, firstn_all; cbn [firstn]; rewrite app_nil_r; reflexivity).
    rewrite (views_out cmpA useAlt addTo joinFn canPre sortEnts visit iterate tbmMax) in Eout.
    set (views := scanViews es ks) in *. set (search := fun (p : iptr) (outers : list (option datum)) => _).
    set (items := insertAll dinf addTo attach curKeyOrdering os search (length KC) views _).
    assert (Hrow : forall x re ents keys, In (x, re, ents, keys) views -> In (ip x, re) out0 /\ exists r, In r table /\ r_tid r = ip x).
    { intros x re ents keys Hin. assert (Hin0 : In (ip x, re) out0) by (rewrite Eout; apply in_map_iff; exists (x, re, ents, keys); split; [reflexivity|exact Hin]).
      split; [exact Hin0|]. assert (Hin1 : In (ip x) (map fst out0)) by (apply (in_map fst) in Hin0; exact Hin0). apply Hp0 in Hin1 as (r & Hr & Er & _). eauto. }
    assert (Hitems : Forall2 (fun v it => fst it = (ip (fst (fst (fst v))), snd (fst (fst v))) /\
       (forall r, In r table -> r_tid r = ip (fst (fst (fst v))) -> Forall2 (fun o d => (keyed o = true -> snd (fst (fst v)) = false) -> distance_of (seen r) r o d) os (snd it))) views items).
    { unfold items. apply (insertAll_spec os search (length KC) (fun v ds => forall r, In r table -> r_tid r = ip (fst (fst (fst v))) -> Forall2 (fun o d => (keyed o = true -> snd (fst (fst v)) = false) -> distance_of (seen r) r o d) os ds)).
      - intros x re ents keys curs Hin Hl. cbv zeta. cbn [fst snd]. rewrite Forall_forall in Hviews. pose proof (Hviews _ Hin) as Hv. destruct (Hrow _ _ _ _ Hin) as (Hin0 & r & Hr & Er).
        assert (Hh : forall s, In s ks -> sk_order (key0 s) = false -> key_holds s (r_tid r)) by (rewrite Er; apply Hheld; apply (in_map fst) in Hin0; exact Hin0).
        rewrite <- Eks in Hv, Hval, Hh.
        destruct (item_spec conds orders Hcov Hoc Hval x re ents keys r Hv Hr (eq_sym Er) Hh curs Hl) as (c & H1 & H2).
        split; [exact (Forall2_len _ _ _ H1)|]. intros r' Hr' Er'. assert (r' = r) as -> by (apply (tid_row table Hnd); [exact Hr'|exact Hr|congruence]). exact H2.
      - apply map_length. }
    assert (Hkeys : map fst items = out0).
    { rewrite Eout. clear - Hitems. induction Hitems as [|v it l l' [H _] _ IH]; [reflexivity|]. cbn [map]. rewrite IH, H. reflexivity. }
    assert (Hit : forall it, In it items -> exists r, In r table /\ r_tid r = fst (fst it) /\ Forall2 (fun o d => (keyed o = true -> snd (fst it) = false) -> distance_of (seen r) r o d) os (snd it)).
    { intros it Hin. assert (Hv : exists v, In v views /\ fst it = (ip (fst (fst (fst v))), snd (fst (fst v))) /\
         (forall r, In r table -> r_tid r = ip (fst (fst (fst v))) -> Forall2 (fun o d => (keyed o = true -> snd (fst (fst v)) = false) -> distance_of (seen r) r o d) os (snd it))).
      { clear - Hin Hitems. induction Hitems as [|v it' l l' H _ IH]; [destruct Hin|]. destruct Hin as [<-|Hin]; [exists v; split; [left; reflexivity|exact H]|]. destruct (IH Hin) as (v' & H1 & H2). exists v'. split; [right; exact H1|exact H2]. }
      destruct Hv as ([[[x re] ents] keys] & Hv & E & Hd). cbn [fst snd] in *. destruct (Hrow _ _ _ _ Hv) as (_ & r & Hr & Er). exists r. rewrite E. cbn [fst snd]. split; [exact Hr|]. split; [exact Er|]. exact (Hd r Hr Er). }
    set (cmp := fun a b : @sitem D => comparetup_rum dcmp (snd a) (snd b)).
    assert (Hlen : forall it, In it items -> length (snd it) = length os).
    { intros it Hin. destruct (Hit it Hin) as (r & _ & _ & H). exact (Forall2_len _ _ _ H). }
    destruct (Hsi cmp items) as [Hperm Hsorted].
    { intros it Hin. unfold cmp. apply ctr_lex; [reflexivity|]. apply lex_refl. exact DOK. }
    { intros a b Ha Hb. unfold cmp. assert (El : length (snd a) = length (snd b)) by (rewrite (Hlen a Ha), (Hlen b Hb); reflexivity). rewrite !ctr_lex by congruence. apply lex_total; [exact DOK|exact El]. }
    { intros a b d Ha Hb Hd. unfold cmp. rewrite !ctr_lex by (rewrite ?(Hlen a Ha), ?(Hlen b Hb), ?(Hlen d Hd); reflexivity). apply lex_trans. exact DOK. }
    { intros a b _ _. unfold cmp. apply (ctr_anti dcmp DOK). }
    set (sorted := sortItems cmp items) in *.
    assert (Hnds : NoDup (map (fun s : @sitem D => fst (fst s)) sorted)).
    { eapply Permutation_NoDup; [apply Permutation_map; apply Permutation_sym; exact Hperm|]. change (NoDup (map (fun s => fst (fst s)) items)). rewrite <- (map_map fst fst), Hkeys. exact Hnd0. }
    assert (Hid : gettuples ip_invalid sorted = sorted).
    { apply gettuples_id. constructor; [|exact Hnds]. intro Hin. apply in_map_iff in Hin as (it & E & Hin). eapply Permutation_in in Hin; [|exact Hperm]. destruct (Hit it Hin) as (r & Hr & Er & _).
      apply (Hoff r Hr). rewrite Er, E. reflexivity. }
    exists sorted. split; [f_equal; exact Hid|]. split; [exact Hnds|]. split; [|split; [|split]].
    - intro p. rewrite <- Hp0, <- Hkeys, map_map. split; intro H; apply in_map_iff in H as (it & E & Hin); apply in_map_iff; exists it; (split; [exact E|]).
      + eapply Permutation_in; [exact Hperm|exact Hin].
      + eapply Permutation_in; [apply Permutation_sym; exact Hperm|exact Hin].
    - intros r re ds Hr Hin. eapply Permutation_in in Hin; [|exact Hperm]. split.
      + apply Hre0; [exact Hr|]. rewrite <- Hkeys. apply in_map_iff. exists (r_tid r, re, ds). split; [reflexivity|exact Hin].
      + destruct (Hit _ Hin) as (r' & Hr' & Er & H). cbn [fst snd] in *. assert (r' = r) as -> by (apply (tid_row table Hnd); assumption). exact H.
    - assert (Hl : forall it, In it sorted -> length (snd it) = length os) by (intros it Hin; apply Hlen; eapply Permutation_in; [exact Hperm|exact Hin]).
      clear - Hsorted Hl. induction Hsorted as [|a l _ IH H]; [constructor|]. constructor; [apply IH; intros; apply Hl; right; assumption|]. rewrite Forall_forall in *. intros b Hb.
      apply ctr_lex; [rewrite (Hl a (or_introl eq_refl)), (Hl b (or_intror Hb)); reflexivity|]. exact (H b Hb).
    - exact HV.
  Qed.
End Whole.

(** ** From the table *)
Theorem order_table (K D : Type) (compareFn : N -> K -> K -> Z) altOf attrOf cmpA rawSize (dflt : K) useAlt addTo built history ix :
  table_index compareFn altOf attrOf cmpA rawSize dflt useAlt addTo built history ix ->
  let table := rows_now built history in
  forall attach curKeyOrdering tuplesort junk joinFn canPre estimate sortEnts visit iterate tbmMax (dcmp : D -> D -> Z) dinf sortItems,
  sorter tuplesort -> junk_harmless compareFn history ix junk -> (forall f a, joinFn addTo = Some f -> f a a = a) -> sorts_entries useAlt addTo cmpA sortEnts ->
  total_cmp dcmp -> sorts_items sortItems ->
  forall conds (orders : list (ordering K D)), covered compareFn dflt addTo attach useAlt curKeyOrdering canPre (ever built history) table conds (map od_clause orders) ->
  orders_covered compareFn dflt addTo attach curKeyOrdering table conds orders ->
  exists V out,
    orderedScan dcmp dinf dflt addTo attach curKeyOrdering compareFn useAlt cmpA tuplesort junk joinFn canPre estimate sortEnts visit iterate tbmMax sortItems ix conds orders = Some out /\
    (existsb noKey conds = false -> forall r q, In r table -> In q (query_keys dflt addTo attach curKeyOrdering conds (map od_clause orders)) ->
       shows (joinFn (rq_att q)) (infos compareFn addTo r q) (V r q)) /\
    NoDup (map (fun s => fst (fst s)) out) /\
    (forall p, In p (map (fun s => fst (fst s)) out) <-> exists r, In r table /\ r_tid r = p /\ forall c, In c conds -> satisfies dflt addTo attach (V r) conds r c) /\
    StronglySorted (fun a b => lex_le dcmp (snd a) (snd b)) out /\
    (forall r re ds, In r table -> In (r_tid r, re, ds) out ->
       (re = true <-> exists c, In c conds /\ wants_recheck addTo attach (V r) conds c) /\
       Forall2 (fun o d => (keyed attach curKeyOrdering o = true -> re = false) -> distance_of dinf addTo attach curKeyOrdering (V r) r o d) (lives orders) ds).
Proof.
  intros Hti table attach curKeyOrdering tuplesort junk joinFn canPre estimate sortEnts visit iterate tbmMax dcmp dinf sortItems Ht HJ Hid Hs Hd Hsi conds orders Hcov Hoc.
  destruct (table_facts compareFn altOf attrOf cmpA rawSize dflt useAlt addTo built history ix junk Hti HJ) as (G & HI & Hag & Hfr & Hju & Hnd & Hin & Hoff).
  destruct (order_spec compareFn altOf attrOf cmpA rawSize (ti_columns _ _ _ _ _ _ _ _ _ _ _ Hti) dflt useAlt addTo attach curKeyOrdering (ti_alt _ _ _ _ _ _ _ _ _ _ _ Hti) tuplesort Ht junk joinFn Hid canPre estimate sortEnts Hs visit iterate tbmMax
    table Hnd Hoff false true ix G HI Hag (ever built history) Hin Hfr Hju dcmp dinf Hd sortItems Hsi conds orders Hcov Hoc) as (out & A & B & C & E & F & HV).
  eexists _, out. split; [exact A|]. split; [exact HV|]. split; [exact B|]. split; [exact C|]. split; [exact F|exact E].
Qed.
