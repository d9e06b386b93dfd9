(** Proofs: the index of a table; one insertion seen through searches. *)
From Verif Require Import Base Ord OrdProof Codec CodecSpec CodecProof LeafPage LeafSpec LeafCodec LeafCodecProof PropCodecProof
  Entries EntriesProof Bulk BulkSpec BulkProof BTree BTreeInv BTreeFind BTreeParent BTreeSplit BTreeIns
  PostingTree PostingTreeSpec PostingTreeProof PropTreeProof EntryTree EntryTreeProof IndexSpec IndexProof.
From Coq Require Import NArith ZArith Lia List Bool Arith ZifyBool ZifyNat ZifyN Permutation Sorted.
Import ListNotations.

Section Heap.
  Context {K : Type}.
  Variable compareFn : N -> K -> K -> Z.
  Variable altOf : N -> bool.
  Variable attrOf : N -> attr.
  Variable cmpA : datum -> datum -> Z.
  Variable rawSize : ekey K -> N.
  Variable dflt : K.
  Hypothesis Hcols : columns_ok compareFn altOf attrOf cmpA.
  Notation kcmp := (rumCompareAttEntries compareFn).
  Notation istate := (@istate K).
  Let HK := proj1 Hcols.
  Let HA := proj1 (proj2 Hcols).
  Let KOK : total_cmp kcmp := att_total compareFn HK.
  Notation rcmp := (fun k : ekey K => compareRumItem (altOf (k_att k)) cmpA).
  Notation store_ok k := (storable (altOf (k_att k)) (attrOf (k_att k))).
  Notation IInv := (IInv compareFn altOf attrOf cmpA rawSize true).
  Notation cont ix G := (contents (i_entry ix) G).

  (** ** one insertion seen through searches *)
  Lemma insert_local ix acked tried b k items tr : ireaches compareFn altOf attrOf cmpA rawSize dflt ix acked tried ->
    call_ok altOf attrOf cmpA rawSize (b, k, items) ->
    rumEntryInsert compareFn altOf attrOf cmpA rawSize dflt b ix k items = Some (tr, Done) ->
    (exists old new, keyRows compareFn ix k = Some old /\ keyRows compareFn (last tr ix) k = Some (Some new) /\
       ssorted (rcmp k) new /\
       (forall x, In x (match old with Some R => R | None => [] end) -> In x new) /\
       (forall x, In x new -> In x (match old with Some R => R | None => [] end) \/ In x items) /\
       (forall x, In x items -> exists y, In y new /\ rcmp k y x = 0%Z)) /\
    (forall k', kcmp k k' <> 0%Z -> keyRows compareFn (last tr ix) k' = keyRows compareFn ix k').
  Proof.
    intros Hr Hc Hi. destruct (ireaches_inv compareFn altOf attrOf cmpA rawSize dflt Hcols true ix acked tried eq_refl Hr) as (G & HI & _).
    destruct (entryInsert_step compareFn altOf attrOf cmpA rawSize dflt Hcols true false ix G b k items HI Hc (or_introl eq_refl)) as (tr' & out & Hi' & _ & _ & _ & Hf).
    rewrite Hi in Hi'. injection Hi' as <- <-. destruct (Hf eq_refl) as (G' & HI' & U1 & U2 & U3). clear Hf.
    set (ix' := last tr ix) in *.
    assert (Huniq : forall t1 t2, In t1 (cont ix' G') -> In t2 (cont ix' G') -> kcmp (t_key t1) (t_key t2) = 0%Z -> t1 = t2).
    { intros t1 t2 H1 H2 E. apply (ssorted_unique (ecmp compareFn) (ecmp_total compareFn HK) (cont ix' G')); auto. eapply (contents_sorted (ecmp compareFn) (ecmp_total compareFn HK)); eauto. exact (X_inv _ _ _ _ _ _ _ _ _ HI'). }
    assert (Huniq0 : forall t1 t2, In t1 (cont ix G) -> In t2 (cont ix G) -> kcmp (t_key t1) (t_key t2) = 0%Z -> t1 = t2).
    { intros t1 t2 H1 H2 E. apply (ssorted_unique (ecmp compareFn) (ecmp_total compareFn HK) (cont ix G)); auto. eapply (contents_sorted (ecmp compareFn) (ecmp_total compareFn HK)); eauto. exact (X_inv _ _ _ _ _ _ _ _ _ HI). }
    pose proof (keyRows_spec compareFn altOf attrOf cmpA rawSize Hcols true false ix G k HI) as K0.
    pose proof (keyRows_spec compareFn altOf attrOf cmpA rawSize Hcols true false ix' G' k HI') as K1.
    pose proof (ktrans0 compareFn altOf attrOf cmpA rawSize Hcols) as KT. assert (KS : forall a b, kcmp a b = 0%Z -> kcmp b a = 0%Z) by (intros; apply (cmp_sym_eq _ KOK); auto).
    split.
    - assert (Hso : forall t R, In t (cont ix' G') -> kcmp (t_key t) k = 0%Z -> tupleRows ix' t = Some R -> ssorted (rcmp k) R).
      { intros t R Ht E HR. destruct (rows_of compareFn altOf attrOf cmpA Hcols true false ix' t (X_data _ _ _ _ _ _ _ _ _ HI' t Ht)) as (R2 & E2 & Hs & _).
        rewrite HR in E2. injection E2 as <-. rewrite (katt_eq compareFn _ _ E) in Hs. exact Hs. }
      destruct U3 as [(t & t' & R & R' & H1 & H2 & H3 & H4 & H5 & H6 & A & B & C)|(H1 & t' & R' & H2 & H3 & H4 & A & B & C)].
      + destruct K0 as [(t0 & R0 & P1 & P2 & P3 & P4)|[P1 _]]; [|exfalso; exact (P1 t H1 H2)].
        assert (t0 = t) as -> by (apply Huniq0; eauto). rewrite H5 in P3. injection P3 as <-.
        assert (H2' : kcmp (t_key t') k = 0%Z) by (rewrite H4; exact H2).
        destruct K1 as [(t1 & R1 & Q1 & Q2 & Q3 & Q4)|[Q1 _]]; [|exfalso; exact (Q1 t' H3 H2')].
        assert (t1 = t') as -> by (apply Huniq; eauto). rewrite H6 in Q3. injection Q3 as <-.
        exists (Some R), R'. split; [exact P4|]. split; [exact Q4|]. split; [eauto|]. auto.
      + destruct K0 as [(t0 & R0 & P1 & P2 & P3 & P4)|[_ P4]]; [exfalso; exact (H1 t0 P1 P2)|].
        assert (H2' : kcmp (t_key t') k = 0%Z) by (rewrite H3; apply (tc_refl _ KOK)).
        destruct K1 as [(t1 & R1 & Q1 & Q2 & Q3 & Q4)|[Q1 _]]; [|exfalso; exact (Q1 t' H2 H2')].
        assert (t1 = t') as -> by (apply Huniq; eauto). rewrite H4 in Q3. injection Q3 as <-.
        exists None, R'. split; [exact P4|]. split; [exact Q4|]. split; [eauto|]. auto.
    - intros k' Hk'. pose proof (keyRows_spec compareFn altOf attrOf cmpA rawSize Hcols true false ix G k' HI) as L0.
      pose proof (keyRows_spec compareFn altOf attrOf cmpA rawSize Hcols true false ix' G' k' HI') as L1.
      assert (Hne : forall t, kcmp (t_key t) k' = 0%Z -> kcmp (t_key t) k <> 0%Z).
      { intros t E E'. apply Hk'. eapply KT; [apply KS; exact E'|exact E]. }
      destruct L0 as [(t & R & P1 & P2 & P3 & ->)|[P1 ->]], L1 as [(t1 & R1 & Q1 & Q2 & Q3 & ->)|[Q1 ->]].
      + assert (t1 = t) as ->.
        { apply Huniq; [exact Q1|apply U1; auto|eauto]. }
        pose proof (U2 t (Hne t P2) P1) as Ek. unfold keeps in Ek. rewrite Ek, P3 in Q3. congruence.
      + exfalso. apply (Q1 t); [|exact P2]. apply U1; auto.
      + exfalso. apply (P1 t1); [|exact Q2]. apply U1; auto.
      + reflexivity.
  Qed.

  (** ** tables *)
  Variables (useAlt : bool) (addTo : N).
  Hypothesis Halt : forall n, altOf n = (useAlt && (n =? addTo)%N).
  Variable qsort : (item datum -> item datum -> Z) -> list (item datum) -> list (item datum).
  Hypothesis Hq : sorter qsort.
  Notation hrow := (@hrow K datum).

  Lemma rbt_keys (acc : list (@eacc K datum)) k it : forall e, In e (rbt_insert compareFn useAlt addTo acc k it) -> ea_key e = k \/ exists e', In e' acc /\ ea_key e = ea_key e'.
  Proof.
    induction acc as [|e0 r IH]; cbn [rbt_insert]; intros e H.
    - destruct H as [<-|[]]. left. reflexivity.
    - destruct (_ =? 0)%Z.
      + destruct H as [<-|H]; right; [exists e0; split; [left; reflexivity|reflexivity]|exists e; split; [right; exact H|reflexivity]].
      + destruct (_ <? 0)%Z.
        * destruct H as [<-|H]; [left; reflexivity|right; exists e; auto].
        * destruct H as [<-|H]; [right; exists e0; split; [left; reflexivity|reflexivity]|]. destruct (IH e H) as [E|(e' & H1 & E)]; [auto|].
          right. exists e'. split; [right; exact H1|exact E].
  Qed.
  Lemma ins_keys ps : forall (acc : list (@eacc K datum)) e, In e (ins_all compareFn useAlt addTo acc ps) -> (exists p, In p ps /\ ea_key e = fst p) \/ exists e', In e' acc /\ ea_key e = ea_key e'.
  Proof.
    induction ps as [|p ps IH]; intros acc e H; cbn [ins_all fold_left] in H; [right; exists e; auto|].
    fold (ins_all compareFn useAlt addTo (rbt_insert compareFn useAlt addTo acc (fst p) (snd p)) ps) in H. apply IH in H as [(q & H1 & E)|(e' & H1 & E)].
    - left. exists q. split; [right; exact H1|exact E].
    - apply rbt_keys in H1 as [E'|(e2 & H2 & E')].
      + left. exists p. split; [left; reflexivity|congruence].
      + right. exists e2. split; [exact H2|congruence].
  Qed.
  Lemma build_keys rows : forall acc, Forall (fun rf => hrow_ok compareFn (fst rf)) rows ->
    forall k l, In (k, l) (build_loop compareFn cmpA useAlt addTo qsort acc rows) ->
    (exists p, In p (flat_map (row_pairs addTo) (map fst rows)) /\ fst p = k) \/ exists e, In e acc /\ ea_key e = k.
  Proof.
    induction rows as [|[r fl] rows IH]; intros acc Ho k l H; cbn [build_loop map flat_map] in *.
    - apply in_map_iff in H as (e & E & He). right. exists e. split; [exact He|]. injection E as <- _. reflexivity.
    - apply Forall_cons_iff in Ho as [Hr Ho]. cbn [fst] in Hr. destruct (row_all compareFn useAlt addTo acc r Hr) as (ps & P & E). rewrite E in H.
      assert (Hacc : forall e, In e (ins_all compareFn useAlt addTo acc ps) ->
         (exists p, In p (row_pairs addTo r ++ flat_map (row_pairs addTo) (map fst rows)) /\ fst p = ea_key e) \/ exists e', In e' acc /\ ea_key e' = ea_key e).
      { intros e He. apply ins_keys in He as [(p & H1 & E1)|(e' & H1 & E1)]; [left|right; eauto]. exists p. split; [|auto].
        apply in_app_iff. left. eapply Permutation_in; eauto. }
      destruct fl.
      + apply in_app_iff in H as [H|H].
        * apply in_map_iff in H as (e & Ee & He). injection Ee as <- _. apply Hacc. exact He.
        * apply (IH [] Ho) in H as [(p & H1 & E1)|(e & [] & _)]. left. exists p. split; [apply in_app_iff; auto|exact E1].
      + apply (IH _ Ho) in H as [(p & H1 & E1)|(e & He & <-)]; [left; exists p; split; [apply in_app_iff; auto|exact E1]|]. apply Hacc. exact He.
  Qed.

  Lemma rbt_nonempty (acc : list (@eacc K datum)) k it : (forall e, In e acc -> ea_list e <> []) -> forall e, In e (rbt_insert compareFn useAlt addTo acc k it) -> ea_list e <> [].
  Proof.
    induction acc as [|e0 r IH]; cbn [rbt_insert]; intros Ha e H.
    - destruct H as [<-|[]]. discriminate.
    - destruct (_ =? 0)%Z.
      + destruct H as [<-|H]; [cbn; destruct (ea_list e0); discriminate|apply Ha; right; exact H].
      + destruct (_ <? 0)%Z.
        * destruct H as [<-|H]; [discriminate|apply Ha; exact H].
        * destruct H as [<-|H]; [apply Ha; left; reflexivity|]. apply IH; [intros e' He'; apply Ha; right; exact He'|exact H].
  Qed.
  Lemma ins_nonempty ps : forall (acc : list (@eacc K datum)), (forall e, In e acc -> ea_list e <> []) -> forall e, In e (ins_all compareFn useAlt addTo acc ps) -> ea_list e <> [].
  Proof.
    induction ps as [|p ps IH]; intros acc Ha; [exact Ha|]. cbn [ins_all fold_left]. apply IH. apply rbt_nonempty. exact Ha.
  Qed.
  Lemma build_loop_nonempty rows : forall acc, Forall (fun rf => hrow_ok compareFn (fst rf)) rows -> (forall e, In e acc -> ea_list e <> []) ->
    forall k, ~ In (k, []) (build_loop compareFn cmpA useAlt addTo qsort acc rows).
  Proof.
    assert (Hd : forall (acc : list (@eacc K datum)), (forall e, In e acc -> ea_list e <> []) -> forall k, ~ In (k, []) (map (rumGetBAEntry cmpA useAlt addTo qsort) acc)).
    { intros acc Ha k H. apply in_map_iff in H as (e & E & He). apply (Ha e He).
      pose proof (getentry_perm cmpA HA useAlt addTo qsort Hq e) as P. rewrite E in P. cbn [snd] in P. apply Permutation_sym, Permutation_nil in P. exact P. }
    induction rows as [|[r fl] rows IH]; intros acc Ho Ha k; cbn [build_loop]; [apply Hd; exact Ha|].
    apply Forall_cons_iff in Ho as [Hr Ho]. cbn [fst] in Hr. destruct (row_all compareFn useAlt addTo acc r Hr) as (ps & P & E). rewrite E.
    pose proof (ins_nonempty ps acc Ha) as Ha'. destruct fl; [|apply IH; auto]. intro H. apply in_app_iff in H as [H|H].
    - exact (Hd _ Ha' k H).
    - exact (IH [] Ho ltac:(intros e []) k H).
  Qed.
  Lemma build_nonempty rows : Forall (fun rf => hrow_ok compareFn (fst rf)) rows -> forall k, ~ In (k, []) (build_calls compareFn cmpA useAlt addTo qsort rows).
  Proof. intros H k. apply build_loop_nonempty; [exact H|intros e []]. Qed.

  Definition pair_ok (p : ekey K * item datum) : Prop := key_fits rawSize (fst p) /\ store_ok (fst p) (snd p).

  Lemma insert_calls_pairs r : insert_calls addTo r = map (fun p => (fst p, [snd p])) (row_pairs addTo (r : hrow)).
  Proof.
    unfold insert_calls, row_pairs. generalize 1%N. induction (r_cols r) as [|es cols IH]; intro att; [reflexivity|].
    cbn [insert_cols col_pairs]. rewrite map_app, map_map, IH. f_equal. apply map_ext. intros [[k0 c] a]. reflexivity.
  Qed.

  Lemma index_of_table_calls built added :
    Forall (fun rf => hrow_ok compareFn (fst rf)) built -> Forall (hrow_ok compareFn) added ->
    NoDup (map r_tid (map fst built ++ added)) ->
    Forall pair_ok (flat_map (row_pairs addTo) (map fst built ++ added)) ->
    (useAlt = false \/ StronglySorted (fun s t => (rumCompareItemPointers s t <= 0)%Z) (map (fun rf => r_tid (fst rf)) built)) ->
    (forall k l, In (k, l) (build_calls compareFn cmpA useAlt addTo qsort built) -> length l <= 1 \/ attr_align (attrOf (k_att k)) = 1%N) ->
    exists ix, indexRun compareFn altOf attrOf cmpA rawSize dflt (emptyIndex dflt) (table_calls compareFn cmpA useAlt addTo qsort built added) = Some ix /\
      index_agrees compareFn altOf cmpA addTo ix (map fst built ++ added) /\
      Forall (call_ok altOf attrOf cmpA rawSize) (table_calls compareFn cmpA useAlt addTo qsort built added).
  Proof.
    intros Hb Ha Hn Hp Hord Hal.
    assert (Hb' : Forall (hrow_ok compareFn) (map fst built)) by (apply Forall_map; exact Hb).
    set (table := map fst built ++ added) in *.
    assert (Hgiven : forall k, Permutation (given compareFn k (table_calls compareFn cmpA useAlt addTo qsort built added)) (rows_for compareFn addTo k table)).
    { intro k. unfold given, table_calls. rewrite map_app, !map_map. unfold call_key, call_rows. cbn [fst snd].
      rewrite !(map_ext (fun x : ekey K * list row => (fst x, snd x)) (fun x => x)) by (intros []; reflexivity). rewrite !map_id. unfold row. rewrite given_app.
      assert (E : rows_for compareFn addTo k table = rows_for compareFn addTo k (map fst built) ++ rows_for compareFn addTo k added).
      { unfold rows_for, table. rewrite flat_map_app, filter_app, map_app. reflexivity. }
      rewrite E. apply Permutation_app; [apply build_rows; auto|]. rewrite insert_given. reflexivity. }
    assert (Hnd : forall k, NoDup (map ip (rows_for compareFn addTo k table))).
    { intro k. apply rows_for_nodup; [exact HK|exact Hn|apply Forall_app; auto]. }
    (* every call is acceptable *)
    assert (Hcalls : Forall (call_ok altOf attrOf cmpA rawSize) (table_calls compareFn cmpA useAlt addTo qsort built added)).
    { apply Forall_app. split; apply Forall_forall; intros c Hc; apply in_map_iff in Hc as ([k l] & <- & Hc); cbn [fst snd].
      - assert (Hin : forall x, In x l -> exists p, In p (flat_map (row_pairs addTo) table) /\ k_att (fst p) = k_att k /\ snd p = x).
        { intros x Hx. assert (Hg : In x (given_to compareFn k (build_calls compareFn cmpA useAlt addTo qsort built))).
          { unfold given_to. apply in_concat. exists l. split; [|exact Hx]. apply in_map_iff. exists (k, l). split; [reflexivity|].
            apply filter_In. split; [exact Hc|]. cbn [fst]. apply Z.eqb_eq. apply (tc_refl _ KOK). }
          eapply Permutation_in in Hg; [|apply build_rows; auto]. unfold rows_for in Hg. apply in_map_iff in Hg as (p & <- & Hp'). apply filter_In in Hp' as [H1 H2].
          exists p. split; [unfold table; rewrite flat_map_app; apply in_app_iff; auto|]. split; [|reflexivity]. apply Z.eqb_eq in H2. apply (katt_eq compareFn). exact H2. }
        rewrite Forall_forall in Hp. split.
        + destruct (build_keys built [] Hb k l Hc) as [(p & H1 & <-)|(e & [] & _)]. unfold call_key. cbn [fst snd].
          apply Hp. unfold table. rewrite flat_map_app. apply in_app_iff. auto.
        + unfold call_key, call_rows. cbn [fst snd]. split; [|split].
          * rewrite Halt. apply (build_calls_sorted compareFn cmpA useAlt addTo qsort built HK HA Hq Hb); [|exact Hc|].
            -- unfold table in Hn. rewrite map_app in Hn. apply nodup_left in Hn. rewrite map_map in Hn. exact Hn.
            -- destruct Hord; auto.
          * apply Forall_forall. intros x Hx. destruct (Hin x Hx) as (p & H1 & H2 & <-). rewrite <- H2. apply Hp. exact H1.
          * apply (Hal k l Hc).
      - apply in_flat_map in Hc as (r & Hr & Hc). rewrite insert_calls_pairs in Hc. apply in_map_iff in Hc as (p & E & Hp'). injection E as <- <-.
        rewrite Forall_forall in Hp. assert (Hpok : pair_ok p).
        { apply Hp. apply in_flat_map. exists r. split; [apply in_app_iff; auto|exact Hp']. }
        destruct Hpok as [H1 H2]. split; [exact H1|]. unfold call_key, call_rows. cbn [fst snd]. split; [apply ssorted_cons; constructor|].
        split; [constructor; [exact H2|constructor]|left; simpl; lia]. }
    destruct (index_history compareFn altOf attrOf cmpA rawSize dflt Hcols true _ eq_refl Hcalls) as (ix & Hrun & Hh & _).
    exists ix. split; [exact Hrun|]. split; [|exact Hcalls]. intro k. destruct (Hh k) as (r & Hk & Hr). exists r. split; [exact Hk|].
    specialize (Hgiven k). specialize (Hnd k). destruct r as [rows|].
    - destruct Hr as ((c & Hc & Ec) & Hs & Hf).
      assert (Hcmp0 : forall x y, rcmp k x y = 0%Z -> ip x = ip y).
      { intros x y E. cbn beta in E. unfold compareRumItem in E. destruct (altOf (k_att k)); [|apply cip_eq; exact E].
        destruct (add x), (add y); try discriminate E; try (apply cip_eq; exact E). destruct (Z.eqb_spec (cmpA d d0) 0); [apply cip_eq; exact E|contradiction]. }
      assert (Hfin : forall x, first_of (rcmp k) (given compareFn k (table_calls compareFn cmpA useAlt addTo qsort built added)) x <->
                              In x (rows_for compareFn addTo k table)).
      { intro x. split.
        - intro H. apply firstof_in in H. eapply Permutation_in; eauto.
        - intro H. eapply Permutation_in in H; [|symmetry; exact Hgiven].
          assert (Hnd' : NoDup (map ip (given compareFn k (table_calls compareFn cmpA useAlt addTo qsort built added)))).
          { eapply Permutation_NoDup; [|exact Hnd]. apply Permutation_map. symmetry. exact Hgiven. }
          apply in_split in H as (l1 & l2 & E). rewrite E in Hnd' |- *. exists l1, l2. split; [reflexivity|]. intros y Hy Ey.
          apply Hcmp0 in Ey. rewrite map_app in Hnd'. cbn [map] in Hnd'. apply NoDup_remove_2 in Hnd'. apply Hnd'. apply in_app_iff. left.
          rewrite <- Ey. apply in_map. exact Hy. }
      assert (HP : Permutation rows (rows_for compareFn addTo k table)).
      { apply NoDup_Permutation.
        - pose proof (tc_refl _ (ROK compareFn altOf attrOf cmpA Hcols k)) as Hrf. revert Hs Hrf. generalize rows. clear. intros l Hs Hrf. induction l as [|x l IH]; [constructor|]. apply ssorted_inv in Hs as [Hs Hf]. constructor; [|auto].
          intro Hx. rewrite Forall_forall in Hf. specialize (Hf x Hx). specialize (Hrf x). cbn beta in *. lia.
        - eapply NoDup_map_inv; eauto.
        - intro x. rewrite <- Hfin. apply Hf. }
      split; [|split; [exact HP|exact Hs]]. intro E.
      (* the call that brought the key brought rows *)
      assert (Hne : call_rows c <> []).
      { unfold table_calls in Hc. apply in_app_iff in Hc as [Hc|Hc]; apply in_map_iff in Hc as ([k0 l] & <- & Hc); unfold call_rows; cbn [snd].
        - intros ->. destruct (build_nonempty built Hb k0 Hc).
        - apply in_flat_map in Hc as (r & _ & Hc). rewrite insert_calls_pairs in Hc. apply in_map_iff in Hc as (p & E' & _). injection E' as <- <-. discriminate. }
      destruct (call_rows c) as [|x xs] eqn:Ex; [congruence|].
      assert (Hx : In x (given compareFn k (table_calls compareFn cmpA useAlt addTo qsort built added))).
      { unfold given, given_to. apply in_concat. exists (call_rows c). split; [|rewrite Ex; left; reflexivity]. apply in_map_iff. exists (call_key c, call_rows c).
        split; [reflexivity|]. apply filter_In. split; [apply in_map_iff; exists c; auto|]. cbn [fst]. apply Z.eqb_eq. exact Ec. }
      eapply Permutation_in in Hx; [|exact Hgiven]. rewrite E in Hx. destruct Hx.
    - apply Permutation_nil. rewrite <- Hgiven. rewrite given_none; [reflexivity|exact Hr].
  Qed.
  Lemma index_of_table built added :
    Forall (fun rf => hrow_ok compareFn (fst rf)) built -> Forall (hrow_ok compareFn) added ->
    NoDup (map r_tid (map fst built ++ added)) ->
    Forall pair_ok (flat_map (row_pairs addTo) (map fst built ++ added)) ->
    (useAlt = false \/ StronglySorted (fun s t => (rumCompareItemPointers s t <= 0)%Z) (map (fun rf => r_tid (fst rf)) built)) ->
    (forall k l, In (k, l) (build_calls compareFn cmpA useAlt addTo qsort built) -> length l <= 1 \/ attr_align (attrOf (k_att k)) = 1%N) ->
    exists ix, indexRun compareFn altOf attrOf cmpA rawSize dflt (emptyIndex dflt) (table_calls compareFn cmpA useAlt addTo qsort built added) = Some ix /\
      index_agrees compareFn altOf cmpA addTo ix (map fst built ++ added).
  Proof. intros. destruct (index_of_table_calls built added) as (ix & A & B & _); eauto. Qed.
  (** a history of insertions is a state the index can reach *)
  Lemma run_reaches calls : forall ix acked tried ix', ireaches compareFn altOf attrOf cmpA rawSize dflt ix acked tried ->
    Forall (call_ok altOf attrOf cmpA rawSize) calls -> indexRun compareFn altOf attrOf cmpA rawSize dflt ix calls = Some ix' ->
    ireaches compareFn altOf attrOf cmpA rawSize dflt ix' (acked ++ calls) (tried ++ calls).
  Proof.
    induction calls as [|[[b k] rows] calls IH]; intros ix acked tried ix' Hr Hc H; cbn [indexRun] in H.
    - injection H as <-. rewrite !app_nil_r. exact Hr.
    - apply Forall_cons_iff in Hc as [Hc1 Hc]. destruct (rumEntryInsert compareFn altOf attrOf cmpA rawSize dflt b ix k rows) as [[tr [| |]]|] eqn:E; try discriminate.
      pose proof (IH (last tr ix) (acked ++ [(b, k, rows)]) (tried ++ [(b, k, rows)]) ix') as IH'. rewrite <- !app_assoc in IH'.
      apply IH'; [|exact Hc|exact H]. eapply ireaches_done; eauto.
  Qed.
End Heap.
