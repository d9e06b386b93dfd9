(** Proofs for the life of an index. *)
From Verif Require Import Base Ord OrdProof Codec CodecSpec CodecProof LeafPage LeafSpec LeafCodec LeafCodecProof PropCodecProof Entries EntriesProof Bulk BulkSpec BulkProof BTree BTreeInv BTreeFind
  PostingTree PostingTreeProof PostingTreeSpec PropTreeProof EntryTree EntryTreeProof IndexSpec IndexProof IndexHeap
  VacuumProof VacuumTree VacTreeFrom VacTreeSpec PropVacTreeProof VacIndex VacIndexProof LifeSpec.
From Coq Require Import NArith ZArith Bool Arith List Lia Permutation Sorted.
Import ListNotations.

Section L.
  Context {K : Type}.
  Variable compareFn : N -> K -> K -> Z.
  Variable altOf : N -> bool.
  Variable attrOf : N -> attr.
  Variable cmpA : datum -> datum -> Z.
  Variable rawSize : ekey K -> N.
  Variable dflt : K.
  Variable addTo : N.
  Hypothesis Hcols : columns_ok compareFn altOf attrOf cmpA.
  Notation kcmp := (rumCompareAttEntries compareFn).
  Notation etup := (etup K).
  Notation istate := (@istate K).
  Notation hrow := (@hrow K datum).
  Notation pair := (ekey K * item datum)%type.
  Let HK := proj1 Hcols.
  Let HA := proj1 (proj2 Hcols).
  Let KOK : total_cmp kcmp := att_total compareFn HK.
  Notation rcmp := (fun k : ekey K => compareRumItem (altOf (k_att k)) cmpA).
  Notation IInv := (IInv compareFn altOf attrOf cmpA rawSize).
  Notation cont ix G := (contents (i_entry ix) G).
  Notation rowsAt ix t := (tupleRows ix t).
  Notation pairs := (flat_map (row_pairs addTo)).
  Notation pair_ok := (fun p : pair => key_fits rawSize (fst p) /\ storable (altOf (k_att (fst p))) (attrOf (k_att (fst p))) (snd p)).

  Definition pfor (k : ekey K) (P : list pair) : list row := map snd (filter (fun e => (kcmp (fst e) k =? 0)%Z) P).
  Lemma pfor_in k P y : In y (pfor k P) <-> exists k', In (k', y) P /\ kcmp k' k = 0%Z.
  Proof.
    unfold pfor. rewrite in_map_iff. split.
    - intros ([k' y'] & <- & H). apply filter_In in H as [H E]. cbn [fst] in E. apply Z.eqb_eq in E. exists k'. auto.
    - intros (k' & H & E). exists (k', y). split; [reflexivity|]. apply filter_In. split; [exact H|]. cbn [fst]. apply Z.eqb_eq. exact E.
  Qed.
  Lemma ksym a b : kcmp a b = 0%Z -> kcmp b a = 0%Z.
  Proof. apply (cmp_sym_eq _ KOK). Qed.
  Lemma ktr a b c : kcmp a b = 0%Z -> kcmp b c = 0%Z -> kcmp a c = 0%Z.
  Proof. intros H1 H2. pose proof (cmp_eq_l kcmp KOK a b c H1). lia. Qed.
  Lemma pfor_key k k' P : kcmp k k' = 0%Z -> forall y, In y (pfor k P) <-> In y (pfor k' P).
  Proof.
    intros E y. rewrite !pfor_in. split; intros (k0 & H & E0); exists k0; (split; [exact H|]).
    - eapply ktr; eauto.
    - eapply ktr; [exact E0|apply ksym; exact E].
  Qed.

  (** what the index holds: the pairs [P]; its keys come from the pairs [E] *)
  Record stores (ix : istate) (G : ghost) (P E : list pair) : Prop := {
    st_rows : forall t, In t (cont ix G) -> exists R, rowsAt ix t = Some R /\ forall y, In y R <-> In y (pfor (t_key t) P);
    st_keys : forall e, In e P -> exists t, In t (cont ix G) /\ kcmp (t_key t) (fst e) = 0%Z;
    st_from : forall t, In t (cont ix G) -> exists e, In e E /\ kcmp (fst e) (t_key t) = 0%Z }.

  Lemma stores_uniq tight c ix G : IInv tight c ix G -> forall t1 t2, In t1 (cont ix G) -> In t2 (cont ix G) -> kcmp (t_key t1) (t_key t2) = 0%Z -> t1 = t2.
  Proof.
    intros HI t1 t2 H1 H2 E. apply (ssorted_unique (ecmp compareFn) (ecmp_total compareFn HK) (cont ix G)); auto.
    eapply (contents_sorted (ecmp compareFn) (ecmp_total compareFn HK)); eauto. exact (X_inv _ _ _ _ _ _ _ _ _ HI).
  Qed.

  Lemma stores_insert ix G P E k x : IInv false true ix G -> stores ix G P E -> pair_ok (k, x) ->
    (forall y, In y (pfor k P) -> ip y <> ip x) ->
    exists tr, rumEntryInsert compareFn altOf attrOf cmpA rawSize dflt false ix k [x] = Some (tr, Done) /\
      exists G', IInv false true (last tr ix) G' /\ stores (last tr ix) G' (P ++ [(k, x)]) (E ++ [(k, x)]).
  Proof.
    intros HI HS Hp Hf.
    destruct (entryInsert_step compareFn altOf attrOf cmpA rawSize dflt Hcols false true ix G false k [x] HI) as (tr & out & Ei & _ & Hd & _ & Hg).
    { destruct Hp as [H1 H2]. cbn [fst snd] in *. split; [exact H1|]. unfold call_key, call_rows. cbn [fst snd]. split; [apply ssorted_cons; constructor|]. split; [constructor; [exact H2|constructor]|left; cbn; lia]. }
    { right. cbn. lia. }
    rewrite (Hd eq_refl) in *. exists tr. split; [exact Ei|]. destruct (Hg eq_refl) as (G' & HI' & U1 & U2 & U3). exists G'. split; [exact HI'|].
    set (ix' := last tr ix) in *. pose proof (stores_uniq false true ix' G' HI') as Huniq.
    assert (Hother : forall k0 y, kcmp k k0 <> 0%Z -> (In y (pfor k0 (P ++ [(k, x)])) <-> In y (pfor k0 P))).
    { intros k0 y N. rewrite !pfor_in. split; intros (k' & H & E'); exists k'; (split; [|exact E']).
      - apply in_app_iff in H as [H|[H|[]]]; [exact H|]. injection H as <- <-. contradiction.
      - apply in_app_iff. auto. }
    assert (Hsame : forall k0 y, kcmp k k0 = 0%Z -> (In y (pfor k0 (P ++ [(k, x)])) <-> In y (pfor k0 P) \/ y = x)).
    { intros k0 y E0. rewrite !pfor_in. split.
      - intros (k' & H & E'). apply in_app_iff in H as [H|[H|[]]]; [left; eauto|]. injection H as <- <-. auto.
      - intros [(k' & H & E')| ->]; [exists k'; split; [apply in_app_iff; auto|exact E']|exists k; split; [apply in_app_iff; right; left; reflexivity|exact E0]]. }
    assert (Hnew : exists t' R', In t' (cont ix' G') /\ kcmp (t_key t') k = 0%Z /\ rowsAt ix' t' = Some R' /\ (forall y, In y R' <-> In y (pfor k P) \/ y = x) /\
              exists e, In e (E ++ [(k, x)]) /\ kcmp (fst e) (t_key t') = 0%Z).
    { assert (Hz : forall y, rcmp k y x = 0%Z -> ip y = ip x).
      { intros y Ey. cbn beta in Ey. unfold compareRumItem in Ey. destruct (altOf (k_att k)); [|apply cip_eq; exact Ey].
        destruct (add y), (add x); try discriminate Ey; try (apply cip_eq; exact Ey). destruct (Z.eqb_spec (cmpA d d0) 0); [apply cip_eq; exact Ey|contradiction]. }
      destruct U3 as [(t & t' & R & R' & H1 & H2 & H3 & H4 & H5 & H6 & A & B & C)|(H1 & t' & R' & H2 & H3 & H4 & A & B & C)].
      - exists t', R'. split; [exact H3|]. split; [rewrite H4; exact H2|]. split; [exact H6|]. destruct (st_rows _ _ _ _ HS t H1) as (R2 & E2 & Hr). rewrite H5 in E2. injection E2 as <-.
        assert (Hr' : forall y, In y R <-> In y (pfor k P)) by (intro y; rewrite (Hr y); apply pfor_key; exact H2). split.
        + intro y. split.
          * intro Hy. destruct (B y Hy) as [Hy'|[Hy'|[]]]; [left; apply Hr'; exact Hy'|right; auto].
          * intros [Hy| ->]; [apply A; apply Hr'; exact Hy|]. destruct (C x (or_introl eq_refl)) as (y & Hy & Ey). destruct (B y Hy) as [Hy'|[<-|[]]]; [|exact Hy].
            exfalso. apply (Hf y); [apply Hr'; exact Hy'|apply Hz; exact Ey].
        + destruct (st_from _ _ _ _ HS t H1) as (e & He & Ee). exists e. split; [apply in_app_iff; auto|]. rewrite H4. exact Ee.
      - exists t', R'. split; [exact H2|]. split; [rewrite H3; apply (tc_refl _ KOK)|]. split; [exact H4|].
        assert (Hno : forall y, ~ In y (pfor k P)).
        { intros y Hy. apply pfor_in in Hy as (k' & Hy & Ek). destruct (st_keys _ _ _ _ HS _ Hy) as (t & Ht & Et). cbn [fst] in Et. apply (H1 t Ht). eapply ktr; eauto. }
        split.
        + intro y. split.
          * intro Hy. destruct (B y Hy) as [[]|[<-|[]]]. auto.
          * intros [Hy| ->]; [destruct (Hno y Hy)|]. destruct (C x (or_introl eq_refl)) as (y & Hy & Ey). destruct (B y Hy) as [[]|[<-|[]]]. exact Hy.
        + exists (k, x). split; [apply in_app_iff; right; left; reflexivity|]. cbn [fst]. rewrite H3. apply (tc_refl _ KOK). }
    destruct Hnew as (t' & R' & N1 & N2 & N3 & N4 & N5).
    constructor.
    - intros t Ht. destruct (Z.eq_dec (kcmp (t_key t) k) 0) as [Et|Et].
      + assert (t = t') as -> by (apply Huniq; auto; eapply ktr; [exact Et|apply ksym; exact N2]). exists R'. split; [exact N3|]. intro y. rewrite (N4 y), (Hsame (t_key t') y (ksym _ _ Et)).
        rewrite (pfor_key _ _ P Et). reflexivity.
      + assert (Ht0 := Ht). apply (U1 t Et) in Ht. destruct (st_rows _ _ _ _ HS t Ht) as (R & HR & Hr). exists R. split; [rewrite (U2 t Et Ht); exact HR|]. intro y. rewrite Hother; [apply Hr|].
        intro E'. apply Et. apply ksym. exact E'.
    - intros e He. apply in_app_iff in He as [He|[<-|[]]]; [|exists t'; auto]. destruct (st_keys _ _ _ _ HS e He) as (t & Ht & Et). destruct (Z.eq_dec (kcmp (t_key t) k) 0) as [Ek|Ek].
      + exists t'. split; [exact N1|]. eapply ktr; [exact N2|]. eapply ktr; [apply ksym; exact Ek|exact Et].
      + exists t. split; [apply (U1 t Ek); exact Ht|exact Et].
    - intros t Ht. destruct (Z.eq_dec (kcmp (t_key t) k) 0) as [Et|Et].
      + assert (t = t') as -> by (apply Huniq; auto; eapply ktr; [exact Et|apply ksym; exact N2]). exact N5.
      + apply (U1 t Et) in Ht. destruct (st_from _ _ _ _ HS t Ht) as (e & He & Ee). exists e. split; [apply in_app_iff; auto|exact Ee].
  Qed.

  Lemma stores_pairs : forall Q ix G P E, IInv false true ix G -> stores ix G P E -> Forall pair_ok Q -> (forall k, NoDup (map ip (pfor k (P ++ Q)))) ->
    exists ix', indexRun compareFn altOf attrOf cmpA rawSize dflt ix (map (fun p => (false, fst p, [snd p])) Q) = Some ix' /\
      exists G', IInv false true ix' G' /\ stores ix' G' (P ++ Q) (E ++ Q).
  Proof.
    induction Q as [|[k x] Q IH]; intros ix G P E HI HS Hp Hn; cbn [map indexRun fst snd].
    - exists ix. rewrite !app_nil_r. split; [reflexivity|]. exists G. auto.
    - apply Forall_cons_iff in Hp as [Hp1 Hp]. destruct (stores_insert ix G P E k x HI HS Hp1) as (tr & -> & G' & HI' & HS').
      { intros y Hy Ey. specialize (Hn k). unfold pfor in Hn. rewrite filter_app in Hn. cbn [filter fst] in Hn. rewrite (tc_refl _ KOK) in Hn. cbn [Z.eqb] in Hn.
        rewrite !map_app in Hn. cbn [map snd] in Hn. apply NoDup_remove_2 in Hn. apply Hn. apply in_app_iff. left. rewrite <- Ey. apply in_map. exact Hy. }
      destruct (IH (last tr ix) G' (P ++ [(k, x)]) (E ++ [(k, x)]) HI' HS' Hp) as (ix' & Er & G2 & HI2 & HS2); [intro k0; rewrite <- app_assoc; apply Hn|].
      rewrite <- !app_assoc in HS2. exists ix'. split; [exact Er|]. exists G2. auto.
  Qed.

  Lemma stores_vacuum tight dead ix G P E : IInv tight true ix G -> stores ix G P E ->
    exists tr, rumbulkdelete altOf attrOf rawSize dead ix = Some (tr, Done) /\ IInv false true (last tr ix) G /\
      stores (last tr ix) G (filter (fun p => alive dead (snd p)) P) E.
  Proof.
    intros HI HS. destruct (bulkdelete_spec compareFn altOf attrOf cmpA rawSize Hcols dead tight ix G HI) as (tr & Er & HI' & Ec & Hr & _).
    exists tr. split; [exact Er|]. split; [exact HI'|]. constructor; rewrite Ec.
    - intros t' Ht. apply in_map_iff in Ht as (t & <- & Ht). destruct (st_rows _ _ _ _ HS t Ht) as (R & HR & Hy). exists (filter (alive dead) R). rewrite (Hr t Ht), HR. split; [reflexivity|].
      intro y. rewrite filter_In, Hy, vt_key, !pfor_in. split.
      + intros [(k' & H & E') Hl]. exists k'. split; [apply filter_In; auto|exact E'].
      + intros (k' & H & E'). apply filter_In in H as [H Hl]. split; [eauto|exact Hl].
    - intros e He. apply filter_In in He as [He _]. destruct (st_keys _ _ _ _ HS e He) as (t & Ht & Et). exists (vt dead t). split; [apply in_map; exact Ht|]. rewrite vt_key. exact Et.
    - intros t' Ht. apply in_map_iff in Ht as (t & <- & Ht). rewrite vt_key. exact (st_from _ _ _ _ HS t Ht).
  Qed.

  (** ** tables *)
  Definition lp (dead : iptr -> bool) (p : pair) : bool := alive dead (snd p).
  Lemma filter_all {X} (f : X -> bool) l b : (forall e, In e l -> f e = b) -> filter f l = if b then l else [].
  Proof.
    induction l as [|e l IH]; intro H; [destruct b; reflexivity|]. cbn [filter]. rewrite (H e (or_introl eq_refl)), IH by (intros; apply H; right; assumption). destruct b; reflexivity.
  Qed.
  Lemma pairs_vacuumed dead (table : list hrow) : pairs (vacuumed dead table) = filter (lp dead) (pairs table).
  Proof.
    induction table as [|r table IH]; [reflexivity|]. unfold vacuumed in *. cbn [filter flat_map]. rewrite filter_app, <- IH.
    rewrite (filter_all (lp dead) (row_pairs addTo r) (negb (dead (r_tid r)))).
    - destruct (negb (dead (r_tid r))); reflexivity.
    - intros e He. unfold lp, alive. f_equal. f_equal. exact (col_pairs_tid addTo r _ _ _ He).
  Qed.
  Lemma pfor_rows k (table : list hrow) : pfor k (pairs table) = rows_for compareFn addTo k table.
  Proof. reflexivity. Qed.

  Lemma stores_finds tight c ix G (table : list hrow) E : IInv tight c ix G -> stores ix G (pairs table) E ->
    NoDup (map r_tid table) -> Forall (hrow_ok compareFn) table -> index_finds compareFn altOf cmpA addTo ix table.
  Proof.
    intros HI HS Hn Ho k. destruct (keyRows_spec compareFn altOf attrOf cmpA rawSize Hcols tight c ix G k HI) as [(t & R & Ht & Ek & HR & Hk)|[Hno Hk]].
    - exists (Some R). split; [exact Hk|]. destruct (rows_of compareFn altOf attrOf cmpA Hcols tight c ix t (X_data _ _ _ _ _ _ _ _ _ HI t Ht)) as (R2 & E2 & Hs & _).
      rewrite HR in E2. injection E2 as <-. rewrite (katt_eq compareFn _ _ Ek) in Hs. split; [|exact Hs].
      destruct (st_rows _ _ _ _ HS t Ht) as (R3 & E3 & Hy). rewrite HR in E3. injection E3 as <-. apply NoDup_Permutation.
      + pose proof (tc_refl _ (ROK compareFn altOf attrOf cmpA Hcols k)) as Hrf. revert Hs Hrf. clear. intros Hs Hrf. induction R as [|x l IH]; [constructor|]. apply ssorted_inv in Hs as [Hs Hf]. constructor; [|auto].
        intro Hx. rewrite Forall_forall in Hf. specialize (Hf x Hx). specialize (Hrf x). cbn beta in *. lia.
      + eapply NoDup_map_inv. apply (rows_for_nodup compareFn HK addTo k table Hn Ho).
      + intro y. rewrite Hy, (pfor_key _ _ _ Ek). reflexivity.
    - exists None. split; [exact Hk|]. destruct (rows_for compareFn addTo k table) as [|y l] eqn:El; [reflexivity|]. exfalso.
      assert (Hy : In y (pfor k (pairs table))) by (rewrite pfor_rows, El; left; reflexivity).
      apply pfor_in in Hy as (k' & Hy & Ek). destruct (st_keys _ _ _ _ HS _ Hy) as (t & Ht & Et). apply (Hno t Ht). eapply ktr; eauto.
  Qed.
  Lemma stores_from tight c ix G P (ever : list hrow) : IInv tight c ix G -> stores ix G P (pairs ever) -> keys_from compareFn addTo ix ever.
  Proof.
    intros HI HS. destruct (tuples_spec compareFn altOf attrOf cmpA rawSize Hcols tight c ix G HI) as [H1 H2]. exists (cont ix G). split; [exact H1|]. split; [exact H2|]. apply (st_from _ _ _ _ HS).
  Qed.

  Lemma life : forall history ix G table ev, IInv false true ix G -> stores ix G (pairs table) (pairs ev) ->
    NoDup (map r_tid table) -> Forall (hrow_ok compareFn) table -> fresh_tids table history -> Forall (hrow_ok compareFn) (inserted history) ->
    Forall pair_ok (pairs (inserted history)) ->
    exists ix' G', indexLife compareFn altOf attrOf cmpA rawSize dflt addTo ix history = Some ix' /\ IInv false true ix' G' /\
      stores ix' G' (pairs (table_after table history)) (pairs (ev ++ inserted history)) /\
      NoDup (map r_tid (table_after table history)) /\ Forall (hrow_ok compareFn) (table_after table history).
  Proof.
    induction history as [|[r|dead] h IH]; intros ix G table ev HI HS Hn Ho Hf Hi Hp; cbn [indexLife table_after fresh_tids] in *.
    - exists ix, G. cbn [inserted flat_map]. rewrite app_nil_r. auto.
    - destruct Hf as [Hf1 Hf]. change (inserted (EIns r :: h)) with (r :: inserted h) in *. apply Forall_cons_iff in Hi as [Hr Hi]. cbn [flat_map] in Hp. apply Forall_app in Hp as [Hp1 Hp].
      assert (Hn' : NoDup (map r_tid (table ++ [r]))).
      { rewrite map_app. cbn [map]. apply (Permutation_NoDup (l := r_tid r :: map r_tid table)); [apply Permutation_cons_append|]. constructor; assumption. }
      assert (Ho' : Forall (hrow_ok compareFn) (table ++ [r])) by (apply Forall_app; auto).
      assert (Ep : forall t : list hrow, pairs (t ++ [r]) = pairs t ++ row_pairs addTo r) by (intro t; rewrite flat_map_app; cbn [flat_map]; rewrite app_nil_r; reflexivity).
      destruct (stores_pairs (row_pairs addTo r) ix G (pairs table) (pairs ev) HI HS Hp1) as (ix' & Er & G' & HI' & HS').
      { intro k. rewrite <- Ep. apply (rows_for_nodup compareFn HK addTo k (table ++ [r]) Hn' Ho'). }
      rewrite insert_calls_pairs, map_map. cbn [fst snd]. rewrite Er. rewrite <- !Ep in HS'.
      destruct (IH ix' G' (table ++ [r]) (ev ++ [r]) HI' HS' Hn' Ho' Hf Hi Hp) as (ix2 & G2 & A & B & C & D & F). exists ix2, G2. rewrite <- app_assoc in C. auto.
    - destruct (stores_vacuum false dead ix G (pairs table) (pairs ev) HI HS) as (tr & Er & HI' & HS'). rewrite Er.
      change (inserted (EVac dead :: h)) with (inserted h) in *. assert (HS2 : stores (last tr ix) G (pairs (vacuumed dead table)) (pairs ev)) by (rewrite pairs_vacuumed; exact HS').
      apply (IH (last tr ix) G (vacuumed dead table) ev HI' HS2); auto.
      + clear - Hn. unfold vacuumed. induction table as [|r t IHt]; [constructor|]. cbn [map filter] in *. apply NoDup_cons_iff in Hn as [H1 H2]. destruct (negb _); [|auto]. cbn [map]. constructor; [|auto].
        intro H. apply H1. apply in_map_iff in H as (x & <- & H). apply in_map. apply filter_In in H. apply H.
      + apply Forall_forall. intros x Hx. apply filter_In in Hx as [Hx _]. rewrite Forall_forall in Ho. auto.
  Qed.

  (** ** CREATE INDEX *)
  Variables (useAlt : bool).
  Hypothesis Halt : forall n, altOf n = (useAlt && (n =? addTo)%N).
  Variable qsort : (item datum -> item datum -> Z) -> list (item datum) -> list (item datum).
  Hypothesis Hq : sorter qsort.

  Lemma created (built : list (hrow * bool)) :
    Forall (fun rf => hrow_ok compareFn (fst rf)) built -> NoDup (map r_tid (map fst built)) -> Forall pair_ok (pairs (map fst built)) ->
    (useAlt = false \/ StronglySorted (fun s t => (rumCompareItemPointers s t <= 0)%Z) (map (fun rf => r_tid (fst rf)) built)) ->
    (forall k l, In (k, l) (build_calls compareFn cmpA useAlt addTo qsort built) -> length l <= 1 \/ attr_align (attrOf (k_att k)) = 1%N) ->
    exists ix G, indexRun compareFn altOf attrOf cmpA rawSize dflt (emptyIndex dflt) (table_calls compareFn cmpA useAlt addTo qsort built []) = Some ix /\
      IInv true true ix G /\ stores ix G (pairs (map fst built)) (pairs (map fst built)).
  Proof.
    intros Hb Hn Hp Hord Hal.
    destruct (index_of_table_calls compareFn altOf attrOf cmpA rawSize dflt Hcols useAlt addTo Halt qsort Hq built [] Hb (Forall_nil _)) as (ix & Er & Hag & Hc);
      rewrite ?app_nil_r; auto.
    rewrite app_nil_r in Hag. set (table := map fst built) in *.
    destruct (empty_inv compareFn altOf attrOf cmpA rawSize dflt true) as (G0 & HI0 & Ec).
    destruct (run_index compareFn altOf attrOf cmpA rawSize dflt Hcols true _ (or_introl eq_refl) (emptyIndex dflt) G0 [] HI0 (empty_holds compareFn altOf cmpA dflt G0 Ec) Hc) as (ix' & G & Er' & HI & _).
    rewrite Er in Er'. injection Er' as <-. exists ix, G. split; [exact Er|]. split; [exact HI|].
    assert (Hk : forall t, In t (cont ix G) -> exists R, rowsAt ix t = Some R /\ keyRows compareFn ix (t_key t) = Some (Some R)).
    { intros t Ht. destruct (keyRows_spec compareFn altOf attrOf cmpA rawSize Hcols true true ix G (t_key t) HI) as [(t0 & R & H1 & H2 & H3 & H4)|[H1 _]].
      - assert (t0 = t) as -> by (eapply (stores_uniq true true ix G HI); eauto). eauto.
      - exfalso. apply (H1 t Ht). apply (tc_refl _ KOK). }
    constructor.
    - intros t Ht. destruct (Hk t Ht) as (R & HR & Hkr). exists R. split; [exact HR|]. destruct (Hag (t_key t)) as (r & E1 & E2). rewrite Hkr in E1. injection E1 as <-. destruct E2 as (_ & HP & _).
      intro y. rewrite pfor_rows. split; intro Hy; [eapply Permutation_in; eauto|eapply Permutation_in; [apply Permutation_sym|]; eauto].
    - intros [k x] He. destruct (keyRows_spec compareFn altOf attrOf cmpA rawSize Hcols true true ix G k HI) as [(t0 & R & H1 & H2 & H3 & H4)|[H1 H2]]; [exists t0; auto|].
      exfalso. destruct (Hag k) as (r & E1 & E2). rewrite H2 in E1. injection E1 as <-. assert (Hx : In x (pfor k (pairs table))) by (apply pfor_in; exists k; split; [exact He|apply (tc_refl _ KOK)]).
      rewrite pfor_rows, E2 in Hx. destruct Hx.
    - intros t Ht. destruct (Hk t Ht) as (R & HR & Hkr). destruct (Hag (t_key t)) as (r & E1 & E2). rewrite Hkr in E1. injection E1 as <-. destruct E2 as (Hne & HP & _).
      destruct (rows_for compareFn addTo (t_key t) table) as [|y l] eqn:El; [congruence|]. assert (Hy : In y (pfor (t_key t) (pairs table))) by (rewrite pfor_rows, El; left; reflexivity).
      apply pfor_in in Hy as (k' & Hy & Ek). exists (k', y). auto.
  Qed.

  Section Whole.
  Variables (built : list (hrow * bool)) (history : list (event K)).
  Hypothesis Hok : table_ok compareFn altOf attrOf rawSize addTo useAlt built history.
  Hypothesis Hal : forall k l, In (k, l) (build_calls compareFn cmpA useAlt addTo qsort built) -> length l <= 1 \/ attr_align (attrOf (k_att k)) = 1%N.
  Notation ever := (map fst built ++ inserted history).
  Notation now := (table_after (map fst built) history).
  Lemma whole : exists ix0 ix G,
    indexRun compareFn altOf attrOf cmpA rawSize dflt (emptyIndex dflt) (table_calls compareFn cmpA useAlt addTo qsort built []) = Some ix0 /\
    indexLife compareFn altOf attrOf cmpA rawSize dflt addTo ix0 history = Some ix /\
    IInv false true ix G /\ stores ix G (pairs now) (pairs ever) /\ NoDup (map r_tid now) /\ Forall (hrow_ok compareFn) now.
  Proof.
    destruct Hok as [Hr Hn Hf Hp Ho]. apply Forall_app in Hr as [Hr1 Hr2]. rewrite flat_map_app in Hp. apply Forall_app in Hp as [Hp1 Hp2].
    destruct (created built) as (ix0 & G0 & E0 & HI0 & HS0); auto; [apply Forall_map; exact Hr1|].
    destruct (life history ix0 G0 (map fst built) (map fst built) (IInv_loose compareFn altOf attrOf cmpA rawSize true true ix0 G0 HI0) HS0 Hn Hr1 Hf Hr2 Hp2) as (ix & G & H1 & H2 & H3 & H4 & H5).
    exists ix0, ix, G. auto 10.
  Qed.
  Theorem life_exact : exists ix0 ix,
    indexRun compareFn altOf attrOf cmpA rawSize dflt (emptyIndex dflt) (table_calls compareFn cmpA useAlt addTo qsort built []) = Some ix0 /\
    indexLife compareFn altOf attrOf cmpA rawSize dflt addTo ix0 history = Some ix /\
    index_finds compareFn altOf cmpA addTo ix now /\ keys_from compareFn addTo ix ever.
  Proof.
    destruct whole as (ix0 & ix & G & H0 & H1 & H2 & H3 & H4 & H5). exists ix0, ix. split; [exact H0|]. split; [exact H1|]. split; [eapply stores_finds; eauto|eapply stores_from; eauto].
  Qed.
  Theorem life_crash ix0 ix dead :
    indexRun compareFn altOf attrOf cmpA rawSize dflt (emptyIndex dflt) (table_calls compareFn cmpA useAlt addTo qsort built []) = Some ix0 ->
    indexLife compareFn altOf attrOf cmpA rawSize dflt addTo ix0 history = Some ix ->
    exists tr, rumbulkdelete altOf attrOf rawSize dead ix = Some (tr, Done) /\ forall s, In s tr -> index_vacuuming compareFn altOf cmpA addTo dead s now.
  Proof.
    intros E0 E1. destruct whole as (ix0' & ix' & G & H0 & H1 & HI & HS & Hn & Ho). rewrite E0 in H0. injection H0 as <-. rewrite E1 in H1. injection H1 as <-.
    destruct (bulkdelete_spec compareFn altOf attrOf cmpA rawSize Hcols dead false ix G HI) as (tr & Er & _ & _ & _ & Ht).
    exists tr. split; [exact Er|]. intros s Hs k. rewrite Forall_forall in Ht. destruct (Ht s Hs) as [HE HF]. clear Ht.
    assert (Hin : forall t', In t' (cont s G) -> exists t, In t (cont ix G) /\ vpart altOf cmpA dead ix s t t').
    { clear - HF. induction HF as [|t t' l l' Hv HF IH]; [intros ? []|]. intros x [<-|Hx]; [exists t; split; [left; reflexivity|exact Hv]|]. destruct (IH x Hx) as (t0 & H1 & H2). exists t0. split; [right; exact H1|exact H2]. }
    assert (Hin' : forall t, In t (cont ix G) -> exists t', In t' (cont s G) /\ t_key t' = t_key t).
    { clear - HF. induction HF as [|t t' l l' Hv HF IH]; [intros ? []|]. intros x [<-|Hx]; [exists t'; split; [left; reflexivity|apply Hv]|]. destruct (IH x Hx) as (t0 & H1 & H2). exists t0. split; [right; exact H1|exact H2]. }
    destruct (keyRows_E compareFn altOf attrOf cmpA rawSize Hcols s G k HE) as [(t' & R' & H1 & H2 & H3 & H4)|[H1 H2]].
    - intros t' Ht'. destruct (Hin t' Ht') as (t & _ & _ & R & R' & _ & -> & _). discriminate.
    - exists (Some R'). split; [exact H4|]. destruct (Hin t' H1) as (t & Ht & Ek & R & R2 & A1 & A2 & A3 & A4 & A5). rewrite H3 in A2. injection A2 as <-.
      rewrite Ek in H2. rewrite (katt_eq compareFn _ _ H2) in A3. split; [exact A3|].
      destruct (st_rows _ _ _ _ HS t Ht) as (R3 & E3 & Hy). rewrite A1 in E3. injection E3 as <-.
      assert (Hy' : forall y, In y R <-> In y (rows_for compareFn addTo k now)) by (intro y; rewrite Hy, (pfor_key _ _ _ H2); reflexivity).
      split; [intros y Hin0; apply Hy', A4; exact Hin0|]. intros x Hx Hd. apply Hy' in Hx.
      assert (Hx' : In x (filter (alive dead) R)) by (apply filter_In; split; [exact Hx|unfold alive; rewrite Hd; reflexivity]).
      unfold alive in *. rewrite <- A5 in Hx'. apply filter_In in Hx'. apply Hx'.
    - exists None. split; [exact H2|]. destruct (rows_for compareFn addTo k now) as [|y l] eqn:El; [reflexivity|]. exfalso.
      assert (Hy : In y (pfor k (pairs now))) by (rewrite pfor_rows, El; left; reflexivity).
      apply pfor_in in Hy as (k' & Hy & Ek). destruct (st_keys _ _ _ _ HS _ Hy) as (t & Ht & Et). destruct (Hin' t Ht) as (t' & Ht' & Ek'). apply (H1 t' Ht'). rewrite Ek'. eapply ktr; eauto.
  Qed.
  End Whole.
End L.
