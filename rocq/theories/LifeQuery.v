(** Proofs: what queries may rely on about an index with a life behind it. *)
From Coq Require Import NArith ZArith Lia List Permutation Sorted Bool Arith.
From Verif Require Import Base Ord OrdProof Codec CodecSpec CodecProof LeafPage LeafSpec LeafCodec LeafCodecProof PropCodecProof Entries EntriesProof Bulk BulkSpec BulkProof BTree BTreeInv BTreeFind
  PostingTree PostingTreeProof PostingTreeSpec PropTreeProof EntryTree EntryTreeProof IndexSpec IndexProof IndexHeap
  VacTreeSpec VacIndex VacIndexProof LifeSpec LifeProof ScanEntry Scan IndexScan VacScanSpec QuerySpec TreeFound.
Import ListNotations.

Lemma inserts_or_vacuum {K} (h : list (event K)) : (exists added, h = map EIns added) \/ has_vacuum h.
Proof.
  induction h as [|[r|dead] h [(l & ->)|(d & H)]].
  - left. exists []. reflexivity.
  - left. exists (r :: l). reflexivity.
  - right. exists d. right. exact H.
  - right. exists dead. left. reflexivity.
  - right. exists dead. left. reflexivity.
Qed.
Lemma no_vacuum {K} (added : list (@hrow K datum)) : ~ has_vacuum (map EIns added).
Proof. intros (d & H). apply in_map_iff in H as (r & E & _). discriminate. Qed.
Lemma inserted_map {K} (added : list (@hrow K datum)) : inserted (map EIns added) = added.
Proof. induction added as [|r l IH]; [reflexivity|]. unfold inserted in *. cbn [map flat_map app]. rewrite IH. reflexivity. Qed.
Lemma after_map {K} (added : list (@hrow K datum)) : forall table, table_after table (map EIns added) = table ++ added.
Proof. induction added as [|r l IH]; intro table; cbn [map table_after]; [rewrite app_nil_r; reflexivity|]. rewrite IH, <- app_assoc. reflexivity. Qed.
Lemma fresh_map {K} (added : list (@hrow K datum)) : forall table, NoDup (map r_tid (table ++ added)) -> NoDup (map r_tid table) /\ fresh_tids table (map EIns added).
Proof.
  induction added as [|r l IH]; intros table H; cbn [map fresh_tids]; [rewrite app_nil_r in H; auto|].
  change (table ++ r :: l) with (table ++ [r] ++ l) in H. rewrite app_assoc in H. destruct (IH _ H) as [H1 H2].
  rewrite map_app in H1. cbn [map] in H1. pose proof (NoDup_remove (map r_tid table) [] (r_tid r) H1) as [H3 H4]. rewrite app_nil_r in H3, H4. auto.
Qed.

Section Facts.
  Context {K : Type}.
  Variable compareFn : N -> K -> K -> Z.
  Variable altOf : N -> bool.
  Variable attrOf : N -> attr.
  Variable cmpA : datum -> datum -> Z.
  Variable rawSize : ekey K -> N.
  Variable dflt : K.
  Notation run := (indexRun compareFn altOf attrOf cmpA rawSize dflt).
  Notation lifeOf := (indexLife compareFn altOf attrOf cmpA rawSize dflt).

  Lemma run_app l1 : forall ix l2, run ix (l1 ++ l2) = match run ix l1 with Some ix' => run ix' l2 | None => None end.
  Proof.
    induction l1 as [|[[b k] rows] l1 IH]; intros ix l2; [reflexivity|]. cbn [app indexRun].
    destruct (rumEntryInsert compareFn altOf attrOf cmpA rawSize dflt b ix k rows) as [[tr [| |]]|]; try reflexivity. apply IH.
  Qed.
  Lemma life_inserts addTo added : forall ix, lifeOf addTo ix (map EIns added) = run ix (map (fun c => (false, fst c, snd c)) (flat_map (insert_calls addTo) added)).
  Proof.
    induction added as [|r l IH]; intro ix; [reflexivity|]. cbn [map indexLife flat_map]. rewrite map_app, run_app.
    destruct (run ix (map (fun c => (false, fst c, snd c)) (insert_calls addTo r))) as [ix'|]; [apply IH|reflexivity].
  Qed.
  Lemma calls_split (useAlt : bool) addTo qsort built added :
    table_calls compareFn cmpA useAlt addTo qsort built added = table_calls compareFn cmpA useAlt addTo qsort built [] ++ map (fun c => (false, fst c, snd c)) (flat_map (insert_calls addTo) added).
  Proof. unfold table_calls. cbn [flat_map map]. rewrite app_nil_r. reflexivity. Qed.

  (** an index made without VACUUM *)
  Lemma inserts_index (useAlt : bool) addTo (built : list (@hrow K datum * bool)) added ix :
    columns_ok compareFn altOf attrOf cmpA -> (forall n, altOf n = andb useAlt (n =? addTo)%N) ->
    Forall (hrow_ok compareFn) (map fst built ++ added) -> NoDup (map r_tid (map fst built ++ added)) ->
    (forall r, In r (map fst built ++ added) -> off (r_tid r) <> 0%N) ->
    Forall (fun p => key_fits rawSize (fst p) /\ storable (altOf (k_att (fst p))) (attrOf (k_att (fst p))) (snd p)) (flat_map (row_pairs addTo) (map fst built ++ added)) ->
    (useAlt = false \/ StronglySorted (fun s t => (rumCompareItemPointers s t <= 0)%Z) (map (fun rf => r_tid (fst rf)) built)) ->
    (exists qsort, sorter qsort /\
      (forall k l, In (k, l) (build_calls compareFn cmpA useAlt addTo qsort built) -> length l <= 1 \/ attr_align (attrOf (k_att k)) = 1%N) /\
      run (emptyIndex dflt) (table_calls compareFn cmpA useAlt addTo qsort built added) = Some ix) ->
    table_index compareFn altOf attrOf cmpA rawSize dflt useAlt addTo built (map EIns added) ix.
  Proof.
    intros H1 H2 H3 H4 H5 H6 H7 (qsort & Hq & Hal & Hr). destruct (fresh_map added _ H4) as [H4a H4b]. split.
    - exact H1.
    - exact H2.
    - split; rewrite ?inserted_map; assumption.
    - unfold ever. rewrite inserted_map. exact H5.
    - exists qsort. split; [exact Hq|]. split; [exact Hal|]. rewrite calls_split, run_app in Hr.
      destruct (run (emptyIndex dflt) (table_calls compareFn cmpA useAlt addTo qsort built [])) as [ix0|]; [|discriminate]. exists ix0. split; [reflexivity|]. rewrite life_inserts. exact Hr.
  Qed.

  Lemma after_incl (h : list (event K)) : forall table r, In r (table_after table h) -> In r (table ++ inserted h).
  Proof.
    induction h as [|[x|dead] h IH]; intros table r H; cbn [table_after] in H.
    - apply in_app_iff. auto.
    - apply IH in H. change (inserted (EIns x :: h)) with (x :: inserted h). rewrite <- app_assoc in H. exact H.
    - apply IH in H. change (inserted (EVac dead :: h)) with (inserted h). apply in_app_iff in H as [H|H]; apply in_app_iff; [left|right; exact H].
      apply filter_In in H. apply H.
  Qed.

  Theorem table_facts (useAlt : bool) addTo built history ix junk :
    table_index compareFn altOf attrOf cmpA rawSize dflt useAlt addTo built history ix -> junk_harmless compareFn history ix junk ->
    exists G, IInv compareFn altOf attrOf cmpA rawSize false true ix G /\
      index_finds compareFn altOf cmpA addTo ix (rows_now built history) /\ keys_from compareFn addTo ix (ever built history) /\
      (forall q, junk_fine compareFn ix q (junk q)) /\
      NoDup (map r_tid (rows_now built history)) /\ (forall r, In r (rows_now built history) -> In r (ever built history)) /\
      (forall r, In r (rows_now built history) -> off (r_tid r) <> 0%N).
  Proof.
    intros [Hcols Halt Hok Hoff (qsort & Hq & Hal & ix0 & Hr0 & Hr)] HJ.
    destruct (whole compareFn altOf attrOf cmpA rawSize dflt addTo Hcols useAlt Halt qsort Hq built history Hok Hal) as (ix0' & ix' & G & E0 & E1 & HI & HS & Hn & Ho).
    rewrite Hr0 in E0. injection E0 as <-. rewrite Hr in E1. injection E1 as <-.
    assert (Hin : forall r, In r (rows_now built history) -> In r (ever built history)) by (intros r H; apply after_incl; exact H).
    exists G. split; [exact HI|].
    split; [eapply (stores_finds compareFn altOf attrOf cmpA rawSize addTo Hcols); eauto|].
    split; [eapply (stores_from compareFn altOf attrOf cmpA rawSize addTo Hcols); eauto|].
    split; [|split; [exact Hn|split; [exact Hin|intros r H; apply Hoff, Hin; exact H]]].
    destruct (inserts_or_vacuum history) as [(added & ->)|Hv]; [|apply HJ; exact Hv].
    destruct Hok as [H1 H2 H3 H4 H5]. rewrite inserted_map in H1, H4. apply Forall_app in H1 as [H1a H1b]. unfold rows_now in *. rewrite after_map in *.
    destruct (index_of_table_calls compareFn altOf attrOf cmpA rawSize dflt Hcols useAlt addTo Halt qsort Hq built added) as (ix' & Hrun & Hag & Hcalls); auto; [rewrite Forall_map in H1a; exact H1a|].
    destruct (empty_inv compareFn altOf attrOf cmpA rawSize dflt true) as (G0 & HI0 & Ec).
    destruct (run_index compareFn altOf attrOf cmpA rawSize dflt Hcols true _ (or_introl eq_refl) (emptyIndex dflt) G0 [] HI0 (empty_holds compareFn altOf cmpA dflt G0 Ec) Hcalls) as (ix2 & G2 & Er2 & HI2 & _).
    rewrite Er2 in Hrun. injection Hrun as ->. rewrite calls_split, run_app, Hr0, <- life_inserts, Hr in Er2. injection Er2 as <-.
    intros q tuples t n st Ht Hit Ek Hd Hst.
    destruct (tuples_spec compareFn altOf attrOf cmpA rawSize Hcols true true ix G2 HI2) as [Ht' _]. rewrite Ht in Ht'. injection Ht' as ->.
    pose proof (X_data _ _ _ _ _ _ _ _ _ HI2 t Hit) as HD. unfold data_ok in HD. rewrite Hd in HD. destruct HD as (st' & Gt & Hst' & HT & _). rewrite Hst in Hst'. injection Hst' as <-.
    eapply (tight_junk (altOf (k_att (t_key t))) (attrOf (k_att (t_key t))) cmpA (proj1 (proj2 Hcols)) st Gt); [exact HT|].
    intro Hemp. destruct (Hag (t_key t)) as (r & Hk & Hrr). destruct (keyRows_spec compareFn altOf attrOf cmpA rawSize Hcols true true ix G2 (t_key t) HI2) as [(t1 & R & A1 & A2 & A3 & A4)|[A1 _]].
    2: { apply (A1 t Hit). apply (tc_refl _ (att_total compareFn (proj1 Hcols))). }
    assert (t1 = t) as -> by (eapply (stores_uniq compareFn altOf attrOf cmpA rawSize Hcols true true ix G2 HI2); eauto).
    rewrite Hk in A4. injection A4 as ->. destruct Hrr as (Hne & HP & _). unfold tupleRows in A3. rewrite Hd, Hst in A3.
    pose proof (scan_spec _ (cri_total (altOf (k_att (t_key t))) cmpA (proj1 (proj2 Hcols))) _ _ _ _ _ _ _ _ HT) as Hsc. unfold ptScan, row in *. rewrite Hsc in A3. injection A3 as <-.
    apply Hne. rewrite Hemp in HP. apply Permutation_nil in HP. exact HP.
  Qed.
  Theorem now_tids (useAlt : bool) addTo built history ix :
    table_index compareFn altOf attrOf cmpA rawSize dflt useAlt addTo built history ix -> NoDup (map r_tid (rows_now built history)).
  Proof.
    intros [Hcols Halt Hok Hoff (qsort & Hq & Hal & _)].
    destruct (whole compareFn altOf attrOf cmpA rawSize dflt addTo Hcols useAlt Halt qsort Hq built history Hok Hal) as (_ & _ & _ & _ & _ & _ & _ & Hn & _). exact Hn.
  Qed.
  Theorem now_rows (useAlt : bool) addTo built history ix :
    table_index compareFn altOf attrOf cmpA rawSize dflt useAlt addTo built history ix -> Forall (hrow_ok compareFn) (rows_now built history).
  Proof.
    intros [_ _ Hok _ _]. pose proof (to_rows _ _ _ _ _ _ _ _ Hok) as H. rewrite Forall_forall in *. intros r Hr. apply H. apply after_incl. exact Hr.
  Qed.
End Facts.
