(** Proofs about the full-index scan (C55). *)
From Coq Require Import NArith ZArith Lia List Permutation Sorted Bool Arith.
From Verif Require Import Base Ord OrdProof Codec CodecSpec LeafPage LeafSpec LeafCodec Entries EntriesSpec EntriesProof Bulk BulkSpec BTree BTreeInv BTreeFind PostingTree PostingTreeSpec PostingTreeProof EntryTree EntryTreeProof IndexSpec IndexProof IndexHeap ScanEntry ScanEntryProof TidBitmap Scan ScanSpec ScanRegular ScanFast IndexScan VacTreeSpec VacIndex VacScanSpec LifeSpec LifeProof LifeQuery QuerySpec TreeFound EntryFound IndexScanProof OrderScan OrderSpec OrderScanProof FullScan FullSpec.
Import ListNotations.
Local Open Scope Z_scope.

(** ** rumgettuple on rows in order *)
Section Out.
  Context {D : Type}.
  Notation sitem := (@sitem D).
  Notation tid s := (fst (fst s)).
  Variable R : sitem -> sitem -> Prop.
  Hypothesis Rtrans : forall a b c, R a b -> R b c -> R a c.
  Hypothesis Rtid : forall a b, R a b -> R b a -> tid a = tid b.
  Variable I : sitem -> Prop.
  Hypothesis Req : forall a b, I a -> I b -> tid a = tid b -> R a b.

  Lemma gt_incl : forall (l : list sitem) p x, In x (gettuples p l) -> In x l.
  Proof.
    induction l as [|s l IH]; intros p x H; [destruct H|]. cbn [gettuples] in H. destruct (_ =? 0); [right; exact (IH _ _ H)|].
    destruct H as [<-|H]; [left; reflexivity|right; exact (IH _ _ H)].
  Qed.
  Lemma gt_sorted (Q : sitem -> sitem -> Prop) : forall (l : list sitem) p, StronglySorted Q l -> StronglySorted Q (gettuples p l).
  Proof.
    induction l as [|s l IH]; intros p H; [constructor|]. apply StronglySorted_inv in H as [H1 H2]. cbn [gettuples]. destruct (_ =? 0); [apply IH; exact H1|].
    constructor; [apply IH; exact H1|]. rewrite Forall_forall in *. intros x Hx. apply H2. exact (gt_incl _ _ _ Hx).
  Qed.
  Lemma gt_all : forall (l : list sitem) p t, In t (map (fun s => tid s) l) -> t = p \/ In t (map (fun s => tid s) (gettuples p l)).
  Proof.
    induction l as [|s l IH]; intros p t H; [destruct H|]. cbn [gettuples map] in *. destruct (rumCompareItemPointers p (tid s) =? 0) eqn:E.
    - apply Z.eqb_eq, cip_eq in E. destruct H as [H|H]; [left; congruence|apply IH; exact H].
    - right. destruct H as [H|H]; [left; exact H|]. destruct (IH (tid s) t H) as [->|H']; [left; reflexivity|right; exact H'].
  Qed.
  Lemma gt_nodup : forall (l : list sitem) a, I a -> Forall I l -> Forall (R a) l -> StronglySorted R l -> NoDup (map (fun s => tid s) (a :: gettuples (tid a) l)).
  Proof.
    induction l as [|s l IH]; intros a Ia Il Ha Hs; [cbn; constructor; [intros []|constructor]|].
    apply Forall_cons_iff in Il as [Is Il]. apply Forall_cons_iff in Ha as [Has Ha]. apply StronglySorted_inv in Hs as [Hs Hf]. cbn [gettuples].
    destruct (rumCompareItemPointers (tid a) (tid s) =? 0) eqn:E; [apply IH; assumption|].
    assert (Hne : tid a <> tid s) by (intro H; rewrite (proj2 (cip_eq _ _) H) in E; discriminate).
    cbn [map]. constructor; [|apply IH; assumption]. intros [H|H]; [congruence|]. apply in_map_iff in H as (y & Ey & Hy). apply gt_incl in Hy.
    rewrite Forall_forall in Hf, Il. apply Hne. apply Rtid; [exact Has|]. eapply Rtrans; [apply Hf; exact Hy|]. apply Req; [apply Il; exact Hy|exact Ia|exact Ey].
  Qed.
  Lemma gt_start (l : list sitem) : Forall I l -> StronglySorted R l -> ~ In ip_invalid (map (fun s => tid s) l) ->
    NoDup (map (fun s => tid s) (gettuples ip_invalid l)) /\ forall t, In t (map (fun s => tid s) (gettuples ip_invalid l)) <-> In t (map (fun s => tid s) l).
  Proof.
    intros Il Hs Hn. split.
    - destruct l as [|s l]; [constructor|]. cbn [gettuples]. destruct (_ =? 0) eqn:E.
      + exfalso. apply Hn. left. symmetry. apply cip_eq. apply Z.eqb_eq. exact E.
      + apply Forall_cons_iff in Il as [Is Il]. apply StronglySorted_inv in Hs as [Hs Hf]. apply gt_nodup; assumption.
    - intro t. split; intro H.
      + apply in_map_iff in H as (x & <- & H). apply in_map_iff. exists x. split; [reflexivity|]. exact (gt_incl _ _ _ H).
      + destruct (gt_all l ip_invalid t H) as [->|H']; [contradiction|exact H'].
  Qed.
End Out.

(** ** comparetup_rum_true orders vectors of one length *)
Section Cmp.
  Context {D : Type}.
  Variable dcmp : D -> D -> Z.
  Hypothesis DOK : total_cmp dcmp.
  Notation ctr := (comparetup_rum dcmp).
  Notation ct := (comparetup_true dcmp).
  Lemma ctr_trans a b c : length a = length b -> length b = length c -> ctr a b <= 0 -> ctr b c <= 0 -> ctr a c <= 0.
  Proof. intros E1 E2. rewrite !ctr_lex by congruence. apply lex_trans. exact DOK. Qed.
  Lemma ctr_refl a : ctr a a = 0.
  Proof. induction a as [|x a IH]; [reflexivity|]. cbn [comparetup_rum]. cbv zeta. rewrite (tc_refl _ DOK). exact IH. Qed.
  Lemma ct_anti a b : ct a b < 0 <-> 0 < ct b a.
  Proof.
    unfold comparetup_true. cbv zeta. pose proof (ctr_anti dcmp DOK (snd a) (snd b)). pose proof (ctr_anti dcmp DOK (snd b) (snd a)).
    pose proof (tc_anti _ cip_total (fst (fst a)) (fst (fst b))).
    destruct (Z.eqb_spec (ctr (snd a) (snd b)) 0), (Z.eqb_spec (ctr (snd b) (snd a)) 0); lia.
  Qed.
  Lemma ct_refl a : ct a a = 0.
  Proof. unfold comparetup_true. cbv zeta. rewrite ctr_refl. cbn [Z.eqb]. apply (tc_refl _ cip_total). Qed.
  Lemma ct_le a b : ct a b <= 0 <-> ctr (snd a) (snd b) < 0 \/ (ctr (snd a) (snd b) = 0 /\ rumCompareItemPointers (fst (fst a)) (fst (fst b)) <= 0).
  Proof. unfold comparetup_true. cbv zeta. destruct (Z.eqb_spec (ctr (snd a) (snd b)) 0); lia. Qed.
  Lemma ct_trans a b c : length (snd a) = length (snd b) -> length (snd b) = length (snd c) -> ct a b <= 0 -> ct b c <= 0 -> ct a c <= 0.
  Proof.
    intros E1 E2. rewrite !ct_le. intros H1 H2.
    pose proof (ctr_trans _ _ _ E1 E2) as T. pose proof (ctr_trans (snd c) (snd a) (snd b) ltac:(congruence) E1) as T2. pose proof (ctr_trans (snd b) (snd c) (snd a) E2 ltac:(congruence)) as T3.
    pose proof (ctr_anti dcmp DOK (snd a) (snd c)). pose proof (ctr_anti dcmp DOK (snd c) (snd a)). pose proof (ctr_anti dcmp DOK (snd a) (snd b)). pose proof (ctr_anti dcmp DOK (snd b) (snd a)).
    pose proof (ctr_anti dcmp DOK (snd b) (snd c)). pose proof (ctr_anti dcmp DOK (snd c) (snd b)).
    pose proof (tc_trans _ cip_total (fst (fst a)) (fst (fst b)) (fst (fst c))). lia.
  Qed.
  Lemma ct_total a b : ct a b <= 0 \/ ct b a <= 0.
  Proof. pose proof (ct_anti a b). pose proof (ct_anti b a). lia. Qed.
  Lemma ct_tid a b : ct a b <= 0 -> ct b a <= 0 -> fst (fst a) = fst (fst b).
  Proof.
    rewrite !ct_le. intros H1 H2. pose proof (ctr_anti dcmp DOK (snd a) (snd b)). pose proof (ctr_anti dcmp DOK (snd b) (snd a)).
    pose proof (tc_anti _ cip_total (fst (fst a)) (fst (fst b))). pose proof (tc_anti _ cip_total (fst (fst b)) (fst (fst a))). apply cip_eq. lia.
  Qed.
End Cmp.

(** ** The rows the scan comes by *)
Section Found.
  Context {K : Type}.
  Variable compareFn : N -> K -> K -> Z.
  Variable altOf : N -> bool.
  Variable attrOf : N -> attr.
  Variable cmpA : datum -> datum -> Z.
  Variable rawSize : ekey K -> N.
  Hypothesis Hcols : columns_ok compareFn altOf attrOf cmpA.
  Variables (dflt : K) (addTo : N) (junk : etup K -> row).
  Notation hrow := (@hrow K datum).
  Notation kcmp := (rumCompareAttEntries compareFn).
  Let HK := proj1 Hcols.
  Let KOK : total_cmp kcmp := att_total compareFn HK.
  Variables ever table : list hrow.
  Variables (tight c : bool) (ix : @istate K) (G : @ghost (etup K)).
  Hypothesis HI : IInv compareFn altOf attrOf cmpA rawSize tight c ix G.
  Hypothesis Hagree : index_finds compareFn altOf cmpA addTo ix table.
  Hypothesis Hfrom : keys_from compareFn addTo ix ever.
  Hypothesis Halive : column1_alive compareFn addTo ever table ix.
  Notation cont := (contents (i_entry ix) G).
  Notation pairs := (flat_map (row_pairs addTo) table).
  Notation evq := (everything dflt).

  Lemma rows_of_any t : In t cont -> exists rows, tupleRows ix t = Some rows /\
    (forall z, In z rows <-> exists e, In e pairs /\ kcmp (fst e) (t_key t) = 0 /\ snd e = z).
  Proof.
    intro Ht. destruct (tuple_rows compareFn altOf attrOf cmpA rawSize Hcols addTo table tight c ix G HI Hagree t Ht) as (R & E & P).
    exists R. split; [exact E|]. intro z. split.
    - intro H. eapply Permutation_in in H; [|exact P]. unfold rows_for in H. apply in_map_iff in H as (e & <- & H). apply filter_In in H as [H1 H2]. apply Z.eqb_eq in H2. eauto.
    - intros (e & H1 & H2 & <-). eapply Permutation_in; [apply Permutation_sym; exact P|]. unfold rows_for. apply in_map. apply filter_In. split; [exact H1|]. apply Z.eqb_eq. exact H2.
  Qed.
  Lemma rows_of_tuple t : In t cont -> k_att (t_key t) = 1%N -> exists y rows, tupleRows ix t = Some (y :: rows) /\ firstEmpty ix t = false /\
    (forall z, In z (y :: rows) <-> exists e, In e pairs /\ kcmp (fst e) (t_key t) = 0 /\ snd e = z).
  Proof.
    intros Ht Ea. destruct (rows_of_any t Ht) as (R & E & Hin).
    destruct Hfrom as (tuples & Et & _ & Hf). destruct (tuples_spec compareFn altOf attrOf cmpA rawSize Hcols tight c ix G HI) as [Et' _].
    assert (Hf' : forall t, In t cont -> exists e, In e (flat_map (row_pairs addTo) ever) /\ kcmp (fst e) (t_key t) = 0).
    { rewrite Et' in Et. injection Et as <-. exact Hf. }
    destruct (Hf' t Ht) as (e0 & He0 & Ek0). destruct (ca_keys _ _ _ _ _ Halive e0 He0) as (e & He & Ek1).
    { destruct (keq compareFn _ _ Ek0) as [E1 _]. congruence. }
    assert (Ek : kcmp (fst e) (t_key t) = 0) by (pose proof (cmp_eq_l _ KOK _ _ (t_key t) Ek1) as Z1; rewrite Ek0 in Z1; lia).
    destruct R as [|y rows]; [exfalso; apply (proj2 (Hin (snd e))); eauto|]. exists y, rows. split; [exact E|]. split; [|exact Hin].
    unfold firstEmpty. destruct (t_data t) as [R'|n] eqn:Hd; [reflexivity|]. destruct (nth_error (i_trees ix) n) as [st|] eqn:Hst; [|reflexivity].
    destruct (leftmostLeaf (S (length st)) st 0) as [b|] eqn:Hb; [|reflexivity]. unfold get. destruct (nth_error st b) as [pg|] eqn:Hpg; [|reflexivity].
    pose proof (ca_pages _ _ _ _ _ Halive _ t n st b pg Et' Ht Ea Hd Hst Hb Hpg) as Hne. destruct (p_items pg); [congruence|reflexivity].
  Qed.
  Lemma nextLists_spec : forall l, (forall t, In t l -> In t cont /\ k_att (t_key t) = 1%N) -> exists L, nextLists junk ix l = Some L /\
    forall y cu, In (y, cu) L <-> exists t e, In t l /\ In e pairs /\ kcmp (fst e) (t_key t) = 0 /\ snd e = y /\ cu = (k_val (t_key t), k_cat (t_key t)).
  Proof.
    induction l as [|t l IH]; intro Hl; [exists []; split; [reflexivity|]; intros y cu; split; [intros []|intros (t & e & [] & _)]|].
    destruct IH as (L & E & HL); [intros; apply Hl; right; assumption|]. destruct (Hl t (or_introl eq_refl)) as [Ht Hta]. destruct (rows_of_tuple t Ht Hta) as (y0 & rows & ER & EF & HR).
    cbn [nextLists]. rewrite ER, EF, E. cbn [option_map]. eexists. split; [reflexivity|]. intros y cu. rewrite in_app_iff. split.
    - intros [H|H].
      + unfold at_tuple in H. apply in_map_iff in H as (z & Ez & Hz). apply HR in Hz as (e & H1 & H2 & H3). injection Ez as -> <-. exists t, e.
        split; [left; reflexivity|]. auto.
      + apply HL in H as (t' & e & H1 & H2). exists t', e. split; [right; exact H1|exact H2].
    - intros (t' & e & [<-|H1] & H2 & H3 & H4 & H5).
      + left. unfold at_tuple. apply in_map_iff. exists y. split; [rewrite H5; reflexivity|]. apply HR. eauto.
      + right. apply HL. exists t', e. auto.
  Qed.
  (** a tuple with a row of the table: the key of the row *)
  Definition at_key (y : row) (cu : K * category) : Prop :=
    exists r e, In r table /\ In e (row_pairs addTo r) /\ k_att (fst e) = 1%N /\ snd e = y /\
      k_cat (fst e) = snd cu /\ (snd cu = CatNormKey -> compareFn 1%N (k_val (fst e)) (fst cu) = 0).
  Lemma found_spec : (forall r, In r table -> has_column1 addTo r) ->
    exists found, fullFound dflt compareFn junk ix = Some found /\ (forall y cu, In (y, cu) found -> at_key y cu) /\
      forall r, In r table -> exists y cu, In (y, cu) found /\ ip y = r_tid r.
  Proof.
    intro Hcol. set (k := mkKey 1%N dflt CatEmptyQuery). unfold fullFound. fold k.
    destruct (tuplesFrom_spec compareFn altOf attrOf rawSize HK ix G k (X_inv _ _ _ _ _ _ _ _ _ HI)) as (pre & suf & Ec & Et & Hpre & Hsuf). rewrite Et.
    destruct (tuples_spec compareFn altOf attrOf cmpA rawSize Hcols tight c ix G HI) as [_ Hs]. rewrite Ec, map_app in Hs. apply ssorted_app in Hs as (_ & Hs & _).
    assert (Hp : partial_ok compareFn (fun _ => True) evq) by (intros f H; discriminate H).
    assert (Hik : forall t, in_key (fun _ => True) evq (t_key t)) by (intros t H1 H2; exact Logic.I).
    assert (Hcm : collectMatch evq suf = filter (fun t => asks compareFn evq (t_key t)) suf).
    { apply (collect_suffix compareFn (fun _ => True) evq suf); [reflexivity|intro H; exfalso; apply H; reflexivity|exact Hp|intros; apply Hik|exact Hs|exact Hsuf]. }
    assert (Hpr : filter (fun t => asks compareFn evq (t_key t)) pre = []).
    { apply (collect_prefix compareFn HK (fun _ => True) evq pre); [reflexivity|intro H; exfalso; apply H; reflexivity|exact Hp|intros; apply Hik|exact Hpre]. }
    assert (Hasks : forall x, asks compareFn evq x = (k_att x =? 1)%N).
    { intro x. unfold asks, everything. cbn [rq_partial rq_cat rq_all rq_att]. cbn [andb negb]. rewrite andb_true_r. reflexivity. }
    assert (Hsub : forall t, In t suf -> In t cont) by (intros t H; rewrite Ec; apply in_app_iff; right; exact H).
    (* a row of the table is found at a tuple of column 1 *)
    assert (Hrow : forall r, In r table -> exists t e, In t (collectMatch evq suf) /\ In e (row_pairs addTo r) /\ kcmp (fst e) (t_key t) = 0).
    { intros r Hr. destruct (Hcol r Hr) as (e & He & Ea). assert (Hep : In e pairs) by (apply in_flat_map; eauto).
      destruct (key_tuple compareFn altOf attrOf cmpA rawSize Hcols addTo table tight c ix G HI Hagree e Hep) as (t & Ht & Ek).
      assert (Hat : asks compareFn evq (t_key t) = true).
      { rewrite Hasks. apply N.eqb_eq. destruct (keq compareFn _ _ Ek) as [E1 _]. congruence. }
      exists t, e. split; [|split; [exact He|apply (cmp_sym_eq _ KOK); exact Ek]]. rewrite Hcm. apply filter_In. split; [|exact Hat].
      rewrite Ec in Ht. apply in_app_iff in Ht as [Ht|Ht]; [|exact Ht]. exfalso. assert (Hin : In t (filter (fun t => asks compareFn evq (t_key t)) pre)) by (apply filter_In; auto).
      rewrite Hpr in Hin. destruct Hin. }
    (* what it comes by at a tuple of column 1 *)
    assert (Hkey : forall t e y, k_att (t_key t) = 1%N -> In e pairs -> kcmp (fst e) (t_key t) = 0 -> snd e = y -> at_key y (k_val (t_key t), k_cat (t_key t))).
    { intros t e y Ea He Ek Ey. apply in_flat_map in He as (r & Hr & He). destruct (keq compareFn _ _ Ek) as (E1 & E2 & E3).
      exists r, e. split; [exact Hr|]. split; [exact He|]. split; [congruence|]. split; [exact Ey|]. cbn [fst snd]. split; [exact E2|]. intro En.
      rewrite <- Ea, <- E1. apply E3. congruence. }
    destruct suf as [|t l].
    - exists []. split; [reflexivity|]. split; [intros y cu []|]. intros r Hr. destruct (Hrow r Hr) as (t & e & [] & _).
    - destruct (rows_of_any t (Hsub t (or_introl eq_refl))) as (rows & ER & HR). rewrite ER.
      destruct (nextLists_spec (collectMatch evq (t :: l))) as (L & EL & HL).
      { intros t' Ht'. rewrite Hcm in Ht'. apply filter_In in Ht' as [Ht' Ha']. rewrite Hasks in Ha'. apply N.eqb_eq in Ha'. auto. }
      rewrite EL. cbn [option_map].
      (* with a row in the table, the first tuple is one of column 1 *)
      assert (Hfirst : table <> [] -> k_att (t_key t) = 1%N).
      { intro Hne. destruct table as [|r0 tl] eqn:Etab; [congruence|]. destruct (Hrow r0 (or_introl eq_refl)) as (t1 & e1 & Ht1 & _). rewrite Hcm in Ht1. apply filter_In in Ht1 as [Ht1 Ha1]. rewrite Hasks in Ha1. apply N.eqb_eq in Ha1.
        assert (Hle : kcmp (t_key t) (t_key t1) <= 0).
        { destruct Ht1 as [<-|Ht1]; [rewrite (tc_refl _ KOK); lia|]. cbn [map] in Hs. apply ssorted_inv in Hs as [_ Hall]. rewrite Forall_map, Forall_forall in Hall. specialize (Hall t1 Ht1). lia. }
        pose proof (kle_att compareFn _ _ Hle) as A1. pose proof (kle_att compareFn _ _ (Hsuf t (or_introl eq_refl))) as A2. cbn [k_att k] in A2. lia. }
      assert (Hemp : t_data t = PList [] -> table = []).
      { intro Hd. destruct table as [|r0 tl] eqn:Etab; [reflexivity|]. exfalso. rewrite <- Etab in *. assert (Hne : table <> []) by (rewrite Etab; discriminate).
        destruct (rows_of_tuple t (Hsub t (or_introl eq_refl)) (Hfirst Hne)) as (y0 & rows0 & ER0 & _). unfold tupleRows in ER0. rewrite Hd in ER0. discriminate. }
      assert (Hcase : (t_data t = PList [] /\ table = []) \/ t_data t <> PList []).
      { destruct (t_data t) as [[|z R]|n]; [left; split; [reflexivity|apply Hemp; reflexivity]|right; discriminate|right; discriminate]. }
      destruct Hcase as [[Hd Htab]|Hnd0].
      { rewrite Hd. exists []. split; [reflexivity|]. split; [intros y cu []|]. rewrite Htab. intros r []. }
      exists (at_tuple t rows ++ L). split; [destruct (t_data t) as [[|z R]|n]; congruence|].
      assert (Hfirst' : forall e, In e pairs -> k_att (t_key t) = 1%N).
      { intros e He. apply Hfirst. apply in_flat_map in He as (r & Hr & _). intro E0. rewrite E0 in Hr. destruct Hr. }
      split.
      + intros y cu H. apply in_app_iff in H as [H|H].
        * unfold at_tuple in H. apply in_map_iff in H as (z & Ez & Hz). apply HR in Hz as (e & H1 & H2 & H3). injection Ez as -> <-. eapply Hkey; eauto.
        * apply HL in H as (t' & e & H1 & H2 & H3 & H4 & ->). eapply Hkey; [|exact H2|exact H3|exact H4].
          rewrite Hcm in H1. apply filter_In in H1 as [_ H1]. rewrite Hasks in H1. apply N.eqb_eq. exact H1.
      + intros r Hr. destruct (Hrow r Hr) as (t' & e & H1 & H2 & H3). exists (snd e), (k_val (t_key t'), k_cat (t_key t')). split.
        * apply in_app_iff. right. apply HL. exists t', e. split; [exact H1|]. split; [apply in_flat_map; eauto|]. auto.
        * apply (row_pairs_facts addTo r e H2).
  Qed.
End Found.

(** ** Distances and the whole query *)
Section Whole.
  Context {K D : Type}.
  Variable compareFn : N -> K -> K -> Z.
  Variables (dcmp : D -> D -> Z) (dinf : D).
  Hypothesis DOK : total_cmp dcmp.
  Variables (dflt : K) (addTo attach : N) (curKeyOrdering : N -> bool).
  Variable table : list (@hrow K datum).
  Hypothesis Hnd : NoDup (map r_tid table).
  Hypothesis Hoff : forall r, In r table -> off (r_tid r) <> 0%N.
  Variable orders : list (ordering K D).
  Hypothesis Hcov : full_covered compareFn addTo attach curKeyOrdering table orders.
  Notation os := (lives orders).
  Notation useAdd := (@useAdd K D attach).
  Notation useCur := (@useCur K D attach curKeyOrdering).
  Notation dist := (fun V => distance_of dinf addTo attach curKeyOrdering V).
  Notation at_key := (at_key compareFn addTo table).

  Lemma useAdd_att (o : ordering K D) : useAdd o = true <-> cl_att (od_clause o) = attach.
  Proof. unfold OrderScan.useAdd. apply N.eqb_eq. Qed.
  Lemma kinds o : In o os -> useAdd o = false -> useCur o = true.
  Proof.
    intros Ho Hu. pose proof (fc_kind _ _ _ _ _ _ Hcov o Ho) as Hk. unfold keyed, bare in Hk. unfold OrderScan.useCur. rewrite Hu. unfold OrderScan.useAdd in Hu. rewrite Hu in Hk.
    cbn [negb andb orb] in *. destruct (curKeyOrdering (cl_att (od_clause o))); [reflexivity|discriminate].
  Qed.
  Lemma full_ds (r : @hrow K datum) e v (cu : K * category) (V : qreq K -> option (option datum)) y keyf : In r table -> In e (row_pairs addTo r) -> k_att (fst e) = 1%N -> v = r_attach r ->
    k_cat (fst e) = snd cu -> (snd cu = CatNormKey -> compareFn 1%N (k_val (fst e)) (fst cu) = 0) ->
    forall os' slots, incl os' os -> Forall2 (slot_ok attach curKeyOrdering v cu) os' slots ->
    Forall2 (dist V r) os' (map (fun t => keyGetOrdering dinf (fst t) (snd t) (keyf (fst t)) [] y) (combine os' slots)).
  Proof.
    intros Hr He Ea -> Ec Ev os' slots Hincl H. induction H as [|o s os' slots Hs _ IH]; [constructor|]. cbn [combine map fst snd]. constructor.
    - destruct Hs as (E1 & E2 & E3 & E4). unfold distance_of, keyGetOrdering. rewrite E1, E2. assert (Ho : In o os) by (apply Hincl; left; reflexivity).
      destruct (useAdd o) eqn:Eu.
      + rewrite (E3 eq_refl). unfold OrderScan.useAdd in Eu. rewrite Eu. reflexivity.
      + pose proof (kinds o Ho Eu) as Euc. rewrite Euc. pose proof Euc as Euc'. unfold OrderScan.useCur in Euc'. rewrite Eu in Euc'. cbn [negb andb] in Euc'.
        rewrite Euc'. assert (Hne : cl_att (od_clause o) <> attach) by (rewrite <- useAdd_att; congruence). unfold OrderScan.useAdd in Eu. rewrite Eu.
        destruct (fc_key _ _ _ _ _ _ Hcov o Ho Hne) as (Ea1 & _ & Hd). rewrite (E4 Euc). exists e. split; [exact He|]. split; [congruence|]. rewrite Ec.
        destruct (snd cu) eqn:Es; try reflexivity. symmetry. apply Hd. apply Ev. reflexivity.
    - apply IH. intros o' Ho'. apply Hincl. right. exact Ho'.
  Qed.
  Lemma full_items : forall found, (forall y cu, In (y, cu) found -> at_key y cu) -> forall curs, length curs = length os ->
    Forall2 (fun f it => fst it = (ip (fst f), false) /\ exists r, In r table /\ r_tid r = ip (fst f) /\ forall V, Forall2 (dist V r) os (snd it))
      found (fullItems dinf dflt addTo attach curKeyOrdering os found curs).
  Proof.
    induction found as [|[y cu] found IH]; intros Hf curs Hl; [constructor|]. cbn [fullItems]. cbv zeta.
    set (slots := everySlot dflt addTo attach curKeyOrdering os y cu :: _).
    destruct (Hf y cu (or_introl eq_refl)) as (r & e & Hr & He & Ea & Ey & Ec & Ev). destruct (row_pairs_facts addTo r e He) as [Etid Eatt].
    assert (Hslots : Forall2 (slot_ok attach curKeyOrdering (r_attach r) cu) os (skipn 1 (spreadAll addTo slots))).
    { unfold slots. change (?a :: ?l) with ([a] ++ l). change (skipn 1) with (@skipn (@slot K) (length [everySlot dflt addTo attach curKeyOrdering os y cu])).
      apply slots_spec; [exact Hl| | | |].
      - intros s [<-|[]]. split; reflexivity.
      - intros o o' Ho Ho' Hu Hu'. apply useAdd_att in Hu. pose proof (fc_one _ _ _ _ _ _ Hcov o o' Ho Ho' Hu) as H. apply useAdd_att in H. unfold OrderScan.useCur in Hu'. rewrite H in Hu'. discriminate.
      - intros (o & Ho & Hu). apply useAdd_att in Hu. pose proof (fc_attached _ _ _ _ _ _ Hcov o Ho Hu) as E1. split; [|split].
        + intros s [<-|[]] _. unfold everySlot. cbn [sl_outer]. rewrite E1. cbn [N.eqb Pos.eqb]. rewrite <- Ey. apply Eatt. congruence.
        + eexists. split; [left; reflexivity|]. cbn [everySlot sl_att]. congruence.
        + intros _ o' Ho' Hu'. exfalso. pose proof (fc_one _ _ _ _ _ _ Hcov o o' Ho Ho' Hu) as H. apply useAdd_att in H. congruence.
      - intros (o & Ho & Hu). exists [], (everySlot dflt addTo attach curKeyOrdering os y cu), []. split; [reflexivity|]. split; [|intros s' []].
        unfold everySlot. cbn [sl_ent]. rewrite (proj2 (existsb_exists useCur os)) by eauto. reflexivity. }
    constructor.
    - cbn [fst snd]. split; [reflexivity|]. exists r. split; [exact Hr|]. split; [congruence|]. intro V.
      apply (full_ds r e (r_attach r) cu V (ip y) (fun o => kp_key (orderKey dflt addTo attach curKeyOrdering true (od_clause o)) [])); try assumption; [reflexivity|apply incl_refl].
    - apply IH; [intros; apply Hf; right; assumption|]. rewrite map_length. exact (Forall2_len _ _ _ Hslots).
  Qed.
  (** there is only one distance *)
  Lemma dist_one V V' r o d d' : In r table -> In o os -> dist V r o d -> dist V' r o d' -> d = d'.
  Proof.
    intros Hr Ho H H'. unfold distance_of in *. destruct (cl_att (od_clause o) =? attach)%N eqn:Eu; [congruence|].
    pose proof (kinds o Ho Eu) as Euc. unfold OrderScan.useCur, OrderScan.useAdd in Euc. rewrite Eu in Euc. cbn [negb andb] in Euc. rewrite Euc in H, H'.
    assert (Hne : cl_att (od_clause o) <> attach) by (apply N.eqb_neq; exact Eu). destruct (fc_key _ _ _ _ _ _ Hcov o Ho Hne) as (Ea1 & Hone & _).
    destruct H as (e & He & Ea & ->), H' as (e' & He' & Ea' & ->). rewrite (Hone r e e' Hr He He') by congruence. reflexivity.
  Qed.
  Lemma dists_one r V V' : In r table -> forall os' ds ds', incl os' os -> Forall2 (dist V r) os' ds -> Forall2 (dist V' r) os' ds' -> ds = ds'.
  Proof.
    intros Hr os' ds ds' Hincl H. revert ds' Hincl. induction H as [|o d os' ds Hd _ IH]; intros ds' Hincl H'; inversion H' as [|? d' ? ds0 Hd' Hds]; subst; [reflexivity|].
    f_equal; [eapply dist_one; [exact Hr|apply Hincl; left; reflexivity|exact Hd|exact Hd']|]. apply IH; [|exact Hds]. intros o' Ho'. apply Hincl. right. exact Ho'.
  Qed.
  Variable sortItems : (@sitem D -> @sitem D -> Z) -> list (@sitem D) -> list (@sitem D).
  Hypothesis Hsi : sorts_items sortItems.
  Theorem full_spec junk ix found : fullFound dflt compareFn junk ix = Some found -> (forall y cu, In (y, cu) found -> at_key y cu) ->
    (forall r, In r table -> exists y cu, In (y, cu) found /\ ip y = r_tid r) ->
    exists out, fullScan dcmp dinf dflt addTo attach curKeyOrdering compareFn junk sortItems ix orders = Some out /\
      NoDup (map (fun s => fst (fst s)) out) /\ (forall p, In p (map (fun s => fst (fst s)) out) <-> In p (map r_tid table)) /\
      StronglySorted (fun a b => lex_le dcmp (snd a) (snd b)) out /\
      forall r re ds, In r table -> In (r_tid r, re, ds) out -> re = false /\ forall V, Forall2 (dist V r) os ds.
  Proof.
    intros Ef Hfk Hfr. unfold fullScan. change (liveOrders orders) with os.
    assert (Hguard : forallb (fun o => bare attach curKeyOrdering (od_clause o) && hasKey attach o) os && negb (length os =? 0)%nat = true).
    { apply andb_true_iff. split.
      - apply forallb_forall. intros o Ho. pose proof (fc_kind _ _ _ _ _ _ Hcov o Ho) as Hk. unfold keyed in Hk. destruct (bare attach curKeyOrdering (od_clause o)); [|discriminate]. cbn [andb].
        unfold hasKey. destruct (useAdd o) eqn:Eu; [reflexivity|]. cbn [orb]. apply N.eqb_eq. apply (fc_key _ _ _ _ _ _ Hcov o Ho). rewrite <- useAdd_att. congruence.
      - pose proof (fc_some _ _ _ _ _ _ Hcov) as Hn. destruct os; [congruence|reflexivity]. }
    rewrite Hguard, Ef. set (items := fullItems _ _ _ _ _ _ _ _).
    assert (Hit : Forall2 (fun f it => fst it = (ip (fst f), false) /\ exists r, In r table /\ r_tid r = ip (fst f) /\ forall V, Forall2 (dist V r) os (snd it)) found items).
    { apply full_items; [exact Hfk|apply map_length]. }
    assert (Hof : forall it, In it items -> exists r, In r table /\ fst it = (r_tid r, false) /\ forall V, Forall2 (dist V r) os (snd it)).
    { clear - Hit. induction Hit as [|f it l l' (E & r & Hr & Er & Hd) _ IH]; [intros it []|]. intros it' [<-|H]; [exists r; rewrite Er; auto|exact (IH it' H)]. }
    assert (Hcovd : forall r, In r table -> exists it, In it items /\ fst (fst it) = r_tid r).
    { intros r Hr. destruct (Hfr r Hr) as (y & cu & Hin & Ey). clear - Hit Hin Ey. induction Hit as [|f it l l' (E & _) _ IH]; [destruct Hin|].
      destruct Hin as [->|Hin]; [exists it; split; [left; reflexivity|]; rewrite E; exact Ey|]. destruct (IH Hin) as (it' & H1 & H2). exists it'. split; [right; exact H1|exact H2]. }
    assert (Hlen : forall it, In it items -> length (snd it) = length os).
    { intros it Hin. destruct (Hof it Hin) as (r & _ & _ & H). exact (Forall2_len _ _ _ (H (fun _ => None))). }
    destruct (Hsi (comparetup_true dcmp) items) as [Hperm Hsorted].
    { intros x _. rewrite (ct_refl dcmp DOK). lia. }
    { intros x y _ _. apply (ct_total dcmp DOK). }
    { intros x y z Hx Hy Hz. apply (ct_trans dcmp DOK); rewrite ?(Hlen _ Hx), ?(Hlen _ Hy), ?(Hlen _ Hz); reflexivity. }
    { intros x y _ _. apply (ct_anti dcmp DOK). }
    set (sorted := sortItems (comparetup_true dcmp) items) in *.
    assert (Hin : forall it, In it sorted <-> In it items) by (intro it; split; apply Permutation_in; [exact Hperm|apply Permutation_sym; exact Hperm]).
    set (R := fun a b : @sitem D => length (snd a) = length (snd b) /\ comparetup_true dcmp a b <= 0).
    set (I := fun it => In it items).
    assert (HR : StronglySorted R sorted).
    { assert (Hl : forall it, In it sorted -> length (snd it) = length os) by (intros it H; apply Hlen, Hin; exact H). clear - Hsorted Hl.
      induction Hsorted as [|a l _ IH H]; [constructor|]. constructor; [apply IH; intros; apply Hl; right; assumption|]. rewrite Forall_forall in *. intros b Hb.
      split; [rewrite (Hl a (or_introl eq_refl)), (Hl b (or_intror Hb)); reflexivity|exact (H b Hb)]. }
    destruct (gt_start R) with (I := I) (l := sorted) as [G1 G2].
    - intros a b d [L1 H1] [L2 H2]. split; [congruence|]. eapply (ct_trans dcmp DOK); eauto.
    - intros a b [_ H1] [_ H2]. apply (ct_tid dcmp DOK); assumption.
    - intros a b Ha Hb E. destruct (Hof a Ha) as (r & Hr & Er & Hd), (Hof b Hb) as (r' & Hr' & Er' & Hd').
      assert (r' = r) as -> by (apply (tid_row table Hnd); [exact Hr'|exact Hr|]; rewrite Er, Er' in E; symmetry; exact E).
      assert (Eab : snd a = snd b) by (apply (dists_one r (fun _ => None) (fun _ => None) Hr os); [apply incl_refl|apply Hd|apply Hd']).
      split; [congruence|]. apply ct_le. right. split; [rewrite Eab; apply ctr_refl; exact DOK|]. rewrite E. rewrite (tc_refl _ cip_total). lia.
    - apply Forall_forall. intros it H. apply Hin. exact H.
    - exact HR.
    - intro H. apply in_map_iff in H as (it & E & H). apply Hin in H. destruct (Hof it H) as (r & Hr & Er & _). apply (Hoff r Hr). rewrite Er in E. cbn [fst] in E. rewrite E. reflexivity.
    - exists (gettuples ip_invalid sorted). split; [reflexivity|]. split; [exact G1|]. split; [|split].
      + intro p. rewrite G2. split; intro H; apply in_map_iff in H as (x & E & H); subst p.
        * apply Hin in H. destruct (Hof x H) as (r & Hr & Er & _). rewrite Er. cbn [fst]. apply in_map. exact Hr.
        * destruct (Hcovd x H) as (it & H1 & H2). rewrite <- H2. apply (in_map (fun s : @sitem D => fst (fst s))). apply Hin. exact H1.
      + apply gt_sorted. clear - HR DOK. induction HR as [|a l _ IH H]; [constructor|]. constructor; [exact IH|]. rewrite Forall_forall in *. intros b Hb. destruct (H b Hb) as [L Hc].
        apply ct_le in Hc. apply ctr_lex; [exact L|]. lia.
      + intros r re ds Hr H. apply gt_incl in H. apply Hin in H. destruct (Hof _ H) as (r' & Hr' & Er & Hd). cbn [fst snd] in *. injection Er as Er ->.
        assert (r' = r) as -> by (apply (tid_row table Hnd); congruence). split; [reflexivity|exact Hd].
  Qed.
End Whole.

(** ** From the table *)
Lemma table_facts_now (K : Type) (compareFn : N -> K -> K -> Z) altOf attrOf cmpA rawSize (dflt : K) useAlt addTo built history ix :
  table_index compareFn altOf attrOf cmpA rawSize dflt useAlt addTo built history ix ->
  exists G, IInv compareFn altOf attrOf cmpA rawSize false true ix G /\
    index_finds compareFn altOf cmpA addTo ix (rows_now built history) /\ keys_from compareFn addTo ix (ever built history) /\
    NoDup (map r_tid (rows_now built history)) /\ (forall r, In r (rows_now built history) -> off (r_tid r) <> 0%N).
Proof.
  intros [Hcols Halt Hok Hoff (qsort & Hq & Hal & ix0 & Hr0 & Hr)].
  destruct (whole compareFn altOf attrOf cmpA rawSize dflt addTo Hcols useAlt Halt qsort Hq built history Hok Hal) as (ix0' & ix' & G & E0 & E1 & HI & HS & Hn & Ho).
  rewrite Hr0 in E0. injection E0 as <-. rewrite Hr in E1. injection E1 as <-.
  exists G. split; [exact HI|].
  split; [eapply (stores_finds compareFn altOf attrOf cmpA rawSize addTo Hcols); eauto|].
  split; [eapply (stores_from compareFn altOf attrOf cmpA rawSize addTo Hcols); eauto|].
  split; [exact Hn|]. intros r H. apply Hoff, after_incl. exact H.
Qed.
Theorem full_table (K D : Type) (compareFn : N -> K -> K -> Z) altOf attrOf cmpA rawSize (dflt : K) useAlt addTo built history ix :
  table_index compareFn altOf attrOf cmpA rawSize dflt useAlt addTo built history ix ->
  let table := rows_now built history in
  forall junk attach curKeyOrdering (dcmp : D -> D -> Z) dinf sortItems, total_cmp dcmp -> sorts_items sortItems ->
  (has_vacuum history -> column1_alive compareFn addTo (ever built history) table ix) -> (forall r, In r table -> has_column1 addTo r) ->
  forall orders : list (ordering K D), full_covered compareFn addTo attach curKeyOrdering table orders ->
  exists out, fullScan dcmp dinf dflt addTo attach curKeyOrdering compareFn junk sortItems ix orders = Some out /\
    NoDup (map (fun s => fst (fst s)) out) /\ (forall p, In p (map (fun s => fst (fst s)) out) <-> In p (map r_tid table)) /\
    StronglySorted (fun a b => lex_le dcmp (snd a) (snd b)) out /\
    forall r re ds, In r table -> In (r_tid r, re, ds) out -> re = false /\ forall V, Forall2 (distance_of dinf addTo attach curKeyOrdering V r) (lives orders) ds.
Proof.
  intros Hti table junk attach curKeyOrdering dcmp dinf sortItems Hd Hsi Hvac Hcol orders Hcov.
  pose proof (ti_columns _ _ _ _ _ _ _ _ _ _ _ Hti) as Hcols.
  assert (Hal : column1_alive compareFn addTo (ever built history) table ix).
  { destruct (inserts_or_vacuum history) as [(added & ->)|Hv]; [|exact (Hvac Hv)].
    assert (HJ : forall j, junk_harmless compareFn (map EIns added) ix j).
    { intros j (dead & Hin). apply in_map_iff in Hin as (x & E & _). discriminate E. }
    assert (Et : table = map fst built ++ added) by (unfold table, rows_now; apply after_map).
    assert (Ee : ever built (map EIns added) = map fst built ++ added) by (unfold ever; rewrite inserted_map; reflexivity).
    split.
    - intros e He _. exists e. split; [rewrite Et, <- Ee; exact He|]. apply (tc_refl _ (att_total compareFn (proj1 Hcols))).
    - intros tuples t n st b pg Htu Hin Ea Hdt Hst Hb Hpg Hnil.
      destruct (table_facts compareFn altOf attrOf cmpA rawSize dflt useAlt addTo built (map EIns added) ix (fun _ => item_min) Hti (HJ _)) as (G & HI & Hag & Hfr & _ & Hnd & _ & Hoff).
      destruct (tuples_spec compareFn altOf attrOf cmpA rawSize Hcols false true ix G HI) as [Et' _]. rewrite Et' in Htu. injection Htu as <-.
      destruct (tuple_rows compareFn altOf attrOf cmpA rawSize Hcols addTo _ false true ix G HI Hag t Hin) as (R & ER & P).
      destruct Hfr as (tuples & Et2 & _ & Hf). rewrite Et' in Et2. injection Et2 as <-. destruct (Hf t Hin) as (e & He & Ek).
      assert (HR : In (snd e) R).
      { eapply Permutation_in; [apply Permutation_sym; exact P|]. unfold rows_for. apply in_map. apply filter_In. split; [|apply Z.eqb_eq; exact Ek].
        change (rows_now built (map EIns added)) with table. rewrite Et, <- Ee. exact He. }
      destruct (table_facts compareFn altOf attrOf cmpA rawSize dflt useAlt addTo built (map EIns added) ix (fun _ => snd e) Hti (HJ _)) as (_ & _ & _ & _ & Hju & _ & _ & _).
      pose proof (Hju (mkReq (k_att (t_key t)) (k_val (t_key t)) (k_cat (t_key t)) None false) _ t n st Et' Hin) as Hq. cbn [rq_att rq_key rq_cat] in Hq.
      assert (Ekk : rumCompareAttEntries compareFn (t_key t) (mkKey (k_att (t_key t)) (k_val (t_key t)) (k_cat (t_key t))) = 0).
      { destruct (t_key t). apply (tc_refl _ (att_total compareFn (proj1 Hcols))). }
      specialize (Hq Ekk Hdt Hst). destruct (Hq b pg Hb Hpg Hnil) as [[_ Hno]|[H0 _]].
      + unfold tupleRows in ER. rewrite Hdt, Hst in ER. exact (Hno R ER (snd e) HR eq_refl).
      + apply in_flat_map in He as (r & Hr & He). rewrite (proj1 (row_pairs_facts addTo r e He)) in H0. apply (Hoff r); [|exact H0].
        change (rows_now built (map EIns added)) with table. rewrite Et, <- Ee. exact Hr. }
  destruct (table_facts_now K compareFn altOf attrOf cmpA rawSize dflt useAlt addTo built history ix Hti) as (G & HI & Hag & Hfr & Hnd & Hoff).
  destruct (found_spec compareFn altOf attrOf cmpA rawSize Hcols dflt addTo junk (ever built history) table false true ix G HI Hag Hfr Hal Hcol) as (found & E & H1 & H2).
  apply (full_spec compareFn dcmp dinf Hd dflt addTo attach curKeyOrdering table Hnd Hoff orders Hcov sortItems Hsi junk ix found E H1 H2).
Qed.
