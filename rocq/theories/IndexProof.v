(** Proofs about whole-index insertion histories. *)
From Verif Require Import Base Ord OrdProof Codec CodecSpec CodecProof LeafPage LeafSpec LeafCodec LeafCodecProof PropCodecProof
  Entries EntriesProof Bulk BulkSpec BTree BTreeInv BTreeFind BTreeParent BTreeSplit BTreeIns
  PostingTree PostingTreeSpec PostingTreeProof PropTreeProof EntryTree EntryTreeProof IndexSpec.
From Coq Require Import NArith ZArith Lia List Bool Arith ZifyBool ZifyNat ZifyN.
Import ListNotations.
Ltac Zify.zify_post_hook ::= Z.div_mod_to_equations.

(** ** first occurrences *)
Section First.
  Context {T : Type} (cmp : T -> T -> Z).
  Lemma firstof_snoc ins x y : first_of cmp (ins ++ [x]) y <-> first_of cmp ins y \/ (y = x /\ forall z, In z ins -> cmp z x <> 0%Z).
  Proof.
    split.
    - intros (l1 & l2 & E & H). destruct l2 as [|z l2 _] using rev_ind.
      + apply app_inj_tail in E as [<- <-]. right. auto.
      + left. exists l1, l2. split; [|exact H]. change (l1 ++ y :: l2 ++ [z]) with (l1 ++ (y :: l2) ++ [z]) in E.
        rewrite app_assoc in E. apply app_inj_tail in E as [E _]. exact E.
    - intros [(l1 & l2 & -> & H)|[-> H]].
      + exists l1, (l2 ++ [x]). split; [rewrite <- app_assoc; reflexivity|exact H].
      + exists ins, []. auto.
  Qed.
  Lemma firstof_in ins y : first_of cmp ins y -> In y ins.
  Proof. intros (l1 & l2 & -> & _). apply in_app_iff. right; left; reflexivity. Qed.
End First.

(** ** sizes of posting lists at MAXALIGNed places *)
Lemma psize_shift alt a rows : legal_align (attr_align a) -> Forall (item_ok alt a) rows -> forall prev s k,
  postingListSize alt a rows prev (s + 8 * k) = (postingListSize alt a rows prev s + 8 * k)%N.
Proof.
  intros Hl. induction 1 as [|r rows Hr _ IH]; intros prev s k; cbn [postingListSize]; [reflexivity|].
  rewrite <- IH. f_equal. unfold rumCheckPlaceToDataPageLeaf.
  set (d := if alt then 6%N else rumDataPageLeafGetItemPointerSize (ip r) prev).
  assert (E1 : (if alt then s + 8 * k + 6 else s + 8 * k + rumDataPageLeafGetItemPointerSize (ip r) prev)%N = (s + d + 8 * k)%N) by (unfold d; destruct alt; lia).
  assert (E2 : (if alt then s + 6 else s + rumDataPageLeafGetItemPointerSize (ip r) prev)%N = (s + d)%N) by (unfold d; destruct alt; lia).
  rewrite E1, E2. destruct (add r) as [v|]; [|reflexivity].
  destruct a as [n|n al|al pk]; cbn [rumComputeDatumSize attr_align] in *; [lia|rewrite (align_shift al _ _ Hl); lia|].
  destruct v as [x|bs|f p]; try reflexivity. destruct (pk && _); [lia|]. destruct f; try lia; rewrite (align_shift al _ _ Hl); lia.
Qed.
Lemma storable_item alt a rows : Forall (storable alt a) rows -> Forall (item_ok alt a) rows.
Proof. intro H. eapply Forall_impl; [|exact H]. intros x [[H1 _] _]. exact H1. Qed.
Lemma fits_of_size alt a rows : Forall (storable alt a) rows ->
  (postingListSize alt a rows ip_min 0 <= RumDataPageSize)%N -> fits_page alt a rows.
Proof.
  intros Hr Hs. apply storable_item in Hr. unfold fits_page.
  destruct (posting_write_ok alt a rows 0%N ip_min Hr) as [bs Hb]. exists bs. split; [exact Hb|].
  rewrite (posting_size_eq alt a rows 0 ip_min bs Hr Hb) in Hs. lia.
Qed.
Lemma fresh_fits alt a : forall items prev s cnt, (s < RumDataPageSize)%N ->
  let '(size, n) := fresh_loop alt a items prev s cnt in
  let m := (if (RumDataPageSize <=? size)%N then n - 1 else n) - cnt in
  cnt <= (if (RumDataPageSize <=? size)%N then n - 1 else n) /\ (postingListSize alt a (firstn m items) prev s < RumDataPageSize)%N.
Proof.
  induction items as [|it items IH]; intros prev s cnt Hs; cbn [fresh_loop].
  - cbn zeta. destruct (N.leb_spec RumDataPageSize s); [lia|]. rewrite Nat.sub_diag. cbn [firstn postingListSize]. split; [lia|assumption].
  - cbn zeta. set (s' := rumCheckPlaceToDataPageLeaf alt a it prev s). destruct (N.ltb_spec s' RumDataPageSize) as [L|L].
    + specialize (IH (ip it) s' (S cnt) L). destruct (fresh_loop alt a items (ip it) s' (S cnt)) as [size n]. cbn zeta in IH.
      destruct IH as [A B]. set (n' := if (RumDataPageSize <=? size)%N then n - 1 else n) in *. split; [lia|].
      replace (n' - cnt) with (S (n' - S cnt)) by lia. cbn [firstn postingListSize]. exact B.
    + destruct (N.leb_spec RumDataPageSize s'); [|lia]. split; [lia|]. replace (S cnt - 1 - cnt) with 0 by lia. cbn [firstn postingListSize]. exact Hs.
Qed.

Section Ix.
  Context {K : Type}.
  Variable compareFn : N -> K -> K -> Z.
  Variable altOf : N -> bool.
  Variable attrOf : N -> attr.
  Variable cmpA : datum -> datum -> Z.
  Variable rawSize : ekey K -> N.
  Variable dflt : K.
  Hypothesis Hcols : columns_ok compareFn altOf attrOf cmpA.
  (** [tight]: no posting tree was vacuumed *)
  Variable tight : bool.
  Notation kcmp := (rumCompareAttEntries compareFn).
  Notation etup := (etup K).
  Notation istate := (@istate K).
  Notation cmp := (ecmp compareFn).
  Notation tsz := (tupsize altOf attrOf rawSize).
  Let HK := proj1 Hcols.
  Let HA := proj1 (proj2 Hcols).
  Let Hatt := proj1 (proj2 (proj2 Hcols)).
  Let Hsafe := proj2 (proj2 (proj2 Hcols)).
  Let OK : total_cmp cmp := ecmp_total compareFn HK.
  Let KOK : total_cmp kcmp := att_total compareFn HK.
  Notation et_ok := (et_ok altOf attrOf rawSize).
  Notation et_fit := (et_fit altOf attrOf rawSize).
  Notation EInv := (Inv cmp (et_ifit rawSize) true et_ok et_fit true).
  Notation rcmp := (fun k : ekey K => compareRumItem (altOf (k_att k)) cmpA).
  Notation TInv k := (Inv (rcmp k) pt_ifit false (pt_ok (altOf (k_att k)) (attrOf (k_att k))) (fits_page (altOf (k_att k)) (attrOf (k_att k))) tight).
  Notation store_ok k := (storable (altOf (k_att k)) (attrOf (k_att k))).

  Lemma ROK k : total_cmp (rcmp k).
  Proof. apply cri_total. exact HA. Qed.

  (** ** one tuple into the entry tree *)
  Lemma eInsert_spec st G b pg stack x : EInv st 0 G -> at_ G 0 b -> get st b = Some pg ->
    in_range cmp (slo G b) (shi G b) x -> stack_ok G 0 stack -> et_ok x ->
    exists tr lost, eInsertValue compareFn altOf attrOf rawSize dflt st b stack x = Some (tr, [], lost) /\ tr <> [] /\
      Forall (fun s => exists Gs, EInv s 0 Gs /\ rows_chg st G s Gs (samekey compareFn x) [x]) tr /\
      exists G', EInv (last tr st) 0 G' /\ rows_chg st G (last tr st) G' (samekey compareFn x) [x] /\
        (complete st 0 G -> lost = false /\ complete (last tr st) 0 G').
  Proof.
    intros HI Hat Hg Hx Hst Hox. unfold eInsertValue.
    destruct (insertValue_chg cmp OK (et_ifit rawSize) true et_ok et_fit (et_kok rawSize) (@et_null K dflt) (et_ienough rawSize)
      (et_find compareFn) (et_enough compareFn altOf attrOf rawSize) (et_place compareFn altOf attrOf rawSize) (et_split compareFn altOf attrOf rawSize)
      (et_isep rawSize) (@et_rkey K)
      (et_kok_ok altOf attrOf rawSize Hatt) (et_ienough_ok altOf attrOf rawSize Hatt) (et_isep_ok altOf attrOf rawSize Hatt) (et_iroot_ok rawSize)
      true st 0 G b pg stack x (samekey compareFn x) HI Hat Hg) as (tr & lost & A & B & C & D).
    - eapply (wst_of_stack_ok cmp (et_ifit rawSize) true et_ok et_fit true st 0 G HI); eauto.
    - apply (stay_others compareFn altOf attrOf rawSize HK st 0 G HI b x Hat Hx).
    - exact (place_case compareFn altOf attrOf rawSize HK Hatt st 0 G HI b pg x Hat Hg Hx Hox).
    - exact (split_case compareFn altOf attrOf rawSize HK Hatt st 0 G HI b pg x Hat Hg Hx Hox).
    - exists tr, lost. auto.
  Qed.

  Notation cont ix G := (contents (i_entry ix) G).
  Lemma katt_eq a b : kcmp a b = 0%Z -> k_att a = k_att b.
  Proof. unfold rumCompareAttEntries. destruct (N.eqb_spec (k_att a) (k_att b)); [auto|]. cbn [negb]. destruct (_ <? _)%N; discriminate. Qed.

  (** ** invariant *)
  Definition data_ok (c : bool) (ix : istate) (t : etup) : Prop :=
    match t_data t with
    | PList rows => ssorted (rcmp (t_key t)) rows /\ Forall (store_ok (t_key t)) rows
    | PTree n => exists st G, nth_error (i_trees ix) n = Some st /\ TInv (t_key t) st 0 G /\ (c = true -> complete st 0 G)
    end.
  Record IInv (c : bool) (ix : istate) (G : ghost) : Prop := {
    X_inv : EInv (i_entry ix) 0 G;
    X_comp : c = true -> complete (i_entry ix) 0 G;
    X_data : forall t, In t (cont ix G) -> data_ok c ix t;
    X_own : forall t1 t2 n, In t1 (cont ix G) -> In t2 (cont ix G) -> t_data t1 = PTree n -> t_data t2 = PTree n -> t1 = t2 }.

  Lemma IInv_weak c ix G : IInv c ix G -> IInv false ix G.
  Proof.
    intros [A B C D]. constructor; [exact A|discriminate| |exact D]. intros t Ht. specialize (C t Ht). unfold data_ok in *.
    destruct (t_data t); [exact C|]. destruct C as (st & Gt & H1 & H2 & _). exists st, Gt. split; [exact H1|]. split; [exact H2|discriminate].
  Qed.

  Lemma rows_of c ix t : data_ok c ix t -> exists R, tupleRows ix t = Some R /\ ssorted (rcmp (t_key t)) R /\ Forall (store_ok (t_key t)) R.
  Proof.
    unfold data_ok, tupleRows. destruct (t_data t) as [R|n].
    - intros [A B]. exists R. auto.
    - intros (st & Gt & -> & HI & _). exists (contents st Gt). split; [unfold ptScan; eapply (scan_spec (rcmp (t_key t)) (ROK _)); eauto|].
      split; [eapply (contents_sorted (rcmp (t_key t)) (ROK _)); eauto|].
      pose proof (contents_ok (rcmp (t_key t)) pt_ifit false (pt_ok (altOf (k_att (t_key t))) (attrOf (k_att (t_key t)))) _ tight st 0 Gt HI) as H. exact H.
  Qed.

  (** ** what a call changes *)
  Definition same (ix : istate) (G : ghost) (ix' : istate) (G' : ghost) : Prop :=
    forall t, In t (cont ix G) <-> In t (cont ix' G').
  Definition keeps (ix ix' : istate) (t : etup) : Prop := tupleRows ix' t = tupleRows ix t.
  Definition same_view (ix : istate) (G : ghost) (ix' : istate) (G' : ghost) : Prop :=
    same ix G ix' G' /\ forall t, In t (cont ix G) -> keeps ix ix' t.
  Definition upd_key (ix : istate) (G : ghost) (ix' : istate) (G' : ghost) (k : ekey K) (u : list row) : Prop :=
    (forall t, kcmp (t_key t) k <> 0%Z -> (In t (cont ix G) <-> In t (cont ix' G'))) /\
    (forall t, kcmp (t_key t) k <> 0%Z -> In t (cont ix G) -> keeps ix ix' t) /\
    ((exists t t' R R', In t (cont ix G) /\ kcmp (t_key t) k = 0%Z /\ In t' (cont ix' G') /\ t_key t' = t_key t /\
        tupleRows ix t = Some R /\ tupleRows ix' t' = Some R' /\ rows_ins (rcmp k) R u R') \/
     ((forall t, In t (cont ix G) -> kcmp (t_key t) k <> 0%Z) /\
      exists t' R', In t' (cont ix' G') /\ t_key t' = k /\ tupleRows ix' t' = Some R' /\ rows_ins (rcmp k) [] u R')).

  (** ** posting trees *)
  Lemma insertPosting_spec build ix k n items st Gt : nth_error (i_trees ix) n = Some st -> TInv k st 0 Gt ->
    valid_batch (altOf (k_att k)) (attrOf (k_att k)) cmpA items -> (tight = true \/ length items <= 1) ->
    exists tr lost, insertPosting altOf attrOf cmpA build ix k n items = Some (map (set_tree ix n) tr, lost) /\
      Forall (fun s => exists u v, items = u ++ v /\ exists Gs, TInv k s 0 Gs /\ rows_ins (rcmp k) (contents st Gt) u (contents s Gs)) tr /\
      (lost = false -> exists G', TInv k (last tr st) 0 G' /\ rows_ins (rcmp k) (contents st Gt) items (contents (last tr st) G') /\
        (complete st 0 Gt -> complete (last tr st) 0 G')) /\ (complete st 0 Gt -> lost = false).
  Proof.
    intros Hn HI Hv Ht. unfold insertPosting. rewrite Hn.
    destruct (insert_gen (altOf (k_att k)) (attrOf (k_att k)) cmpA (Hatt _) HA (Hsafe _) tight build items st Gt HI Hv Ht)
      as (tr & lost & done & todo & Hi & E & Hl & Htr & G' & HI' & HR' & HC').
    exists tr, lost. unfold altK, attrK. rewrite Hi. split; [reflexivity|]. split; [|split].
    - eapply Forall_impl; [|exact Htr]. intros s (u & v & E' & _ & H). exists u, v. auto.
    - intros ->. specialize (Hl eq_refl). subst todo. rewrite app_nil_r in E. subst done. exists G'. split; [exact HI'|]. split; [exact HR'|].
      intro Hc. apply HC'. exact Hc.
    - intro Hc. apply HC'. exact Hc.
  Qed.

  Definition grown (ix : istate) (t : list (page row)) : istate := mkIx (i_entry ix) (i_trees ix ++ [t]).
  Lemma upd_last {A} (l : list A) x y : upd (l ++ [x]) (length l) y = l ++ [y].
  Proof. induction l as [|z l IH]; cbn; [reflexivity|]. rewrite IH. reflexivity. Qed.
  Lemma last_map {A B} (f : A -> B) l d e : f d = e -> last (map f l) e = f (last l d).
  Proof. intros <-. induction l as [|x [|y l] IH]; cbn; auto. Qed.

  Lemma newPosting_spec build ix k first rest : ssorted (rcmp k) first -> Forall (store_ok k) first ->
    fits_page (altOf (k_att k)) (attrOf (k_att k)) first ->
    valid_batch (altOf (k_att k)) (attrOf (k_att k)) cmpA rest -> (tight = true \/ length rest <= 1) ->
    exists tr t G, newPosting altOf attrOf cmpA build ix k first rest = Some (tr, false) /\
      Forall (fun s => exists t, s = grown ix t) tr /\ last tr ix = grown ix t /\ TInv k t 0 G /\ complete t 0 G /\
      rows_ins (rcmp k) first rest (contents t G).
  Proof.
    intros Hs Ho Hf Hv Ht. unfold newPosting. fold (grown ix (createPostingTree first)).
    destruct (create_gen (altOf (k_att k)) (attrOf (k_att k)) cmpA tight first Hs Ho Hf) as (G0 & HI0 & Hc0 & E0).
    destruct (insertPosting_spec build (grown ix (createPostingTree first)) k (length (i_trees ix)) rest (createPostingTree first) G0) as (tr & lost & Hi & Htr & Hok & Hl).
    - unfold grown. cbn [i_trees]. rewrite nth_error_app2, Nat.sub_diag by lia. reflexivity.
    - exact HI0.
    - exact Hv.
    - exact Ht.
    - rewrite Hi. specialize (Hl Hc0). subst lost. destruct (Hok eq_refl) as (G' & HI' & HR & HC). specialize (HC Hc0).
      assert (Eg : forall t, set_tree (grown ix (createPostingTree first)) (length (i_trees ix)) t = grown ix t).
      { intro t. unfold set_tree, grown. cbn [i_entry i_trees]. rewrite upd_last. reflexivity. }
      rewrite E0 in HR. eexists _, (last tr (createPostingTree first)), G'. split; [reflexivity|]. split; [|split; [|auto]].
      + constructor; [eauto|]. apply Forall_forall. intros s Hin. apply in_map_iff in Hin as (t & <- & _). rewrite Eg. eauto.
      + rewrite last_cons_eq. rewrite (last_map _ _ (createPostingTree first)); [apply Eg|apply Eg].
  Qed.

  Lemma grown_data c ix t0 t : data_ok c ix t -> data_ok c (grown ix t0) t /\ keeps ix (grown ix t0) t.
  Proof.
    unfold data_ok, keeps, tupleRows, grown. cbn [i_trees]. destruct (t_data t) as [R|n]; [auto|].
    intros (st & Gt & Hn & HI & HC). rewrite nth_error_app1 by (eapply nth_some_lt; eauto). split; [|reflexivity].
    exists st, Gt. auto.
  Qed.
  Lemma grown_inv c ix G t0 : IInv c ix G -> IInv c (grown ix t0) G /\ same_view ix G (grown ix t0) G.
  Proof.
    intros [A B C D]. split; [constructor; [exact A|exact B| |exact D]|split; [intro; tauto|]].
    - intros t Ht. apply grown_data. apply C. exact Ht.
    - intros t Ht. apply (grown_data c). apply C. exact Ht.
  Qed.

  Definition step_ok (ix : istate) (G : ghost) (k : ekey K) (items : list row) (s : istate) : Prop :=
    exists Gs, IInv false s Gs /\ (same_view ix G s Gs \/ exists u v, items = u ++ v /\ upd_key ix G s Gs k u).

  Lemma ktrans0 a b c : kcmp a b = 0%Z -> kcmp b c = 0%Z -> kcmp a c = 0%Z.
  Proof. intros H1 H2. pose proof (cmp_eq_l kcmp KOK a b c H1). lia. Qed.

  Lemma put_inv c c' ix G es Gs x : IInv c ix G -> data_ok c ix x -> (c' = true -> c = true) ->
    (forall t n, In t (cont ix G) -> t_data t = PTree n -> t_data x = PTree n -> cmp t x = 0%Z) ->
    EInv es 0 Gs -> (c' = true -> complete es 0 Gs) ->
    rows_chg (i_entry ix) G es Gs (samekey compareFn x) [x] -> IInv c' (set_entry ix es) Gs.
  Proof.
    intros [A B C D] Hx Hcc Hown HE HC HR. constructor; [exact HE|exact HC| |].
    - intros t Ht. cbn [set_entry i_entry] in Ht. apply HR in Ht.
      assert (Hd : data_ok c ix t) by (destruct Ht as [[Ht _]|[<-|[]]]; auto). unfold data_ok in *. cbn [set_entry i_trees].
      destruct (t_data t); [exact Hd|]. destruct Hd as (st & Gt & H1 & H2 & H3). exists st, Gt. auto.
    - intros t1 t2 n H1 H2 E1 E2. cbn [set_entry i_entry] in H1, H2. apply HR in H1, H2. unfold samekey in *.
      destruct H1 as [[H1 S1]|[<-|[]]], H2 as [[H2 S2]|[<-|[]]]; [eapply D; eauto| | |reflexivity]; exfalso.
      + pose proof (Hown t1 n H1 E1 E2). lia.
      + pose proof (Hown t2 n H2 E2 E1). lia.
  Qed.

  Lemma install c ix G ix1 b stack pg x k R' items tr :
    IInv c ix1 G -> same_view ix G ix1 G -> i_entry ix1 = i_entry ix ->
    at_ G 0 b -> get (i_entry ix) b = Some pg -> in_range cmp (slo G b) (shi G b) x -> stack_ok G 0 stack ->
    et_ok x -> kcmp (t_key x) k = 0%Z -> data_ok c ix1 x ->
    (forall t n, In t (cont ix G) -> t_data t = PTree n -> t_data x = PTree n -> cmp t x = 0%Z) ->
    tupleRows ix1 x = Some R' ->
    ((exists t R, In t (cont ix G) /\ t_key t = t_key x /\ tupleRows ix t = Some R /\ rows_ins (rcmp k) R items R') \/
     ((forall t, In t (cont ix G) -> kcmp (t_key t) k <> 0%Z) /\ t_key x = k /\ rows_ins (rcmp k) [] items R')) ->
    Forall (step_ok ix G k items) tr -> last tr ix = ix1 ->
    exists tr' out, insertTuple compareFn altOf attrOf rawSize dflt ix b stack (tr, inl x) = Some (tr', out) /\
      out <> TooBig /\ (c = true -> out = Done) /\ Forall (step_ok ix G k items) tr' /\
      (out = Done -> exists G', IInv c (last tr' ix) G' /\ upd_key ix G (last tr' ix) G' k items).
  Proof.
    intros HI Hsv Hent Hat Hg Hx Hst Hox Hkx Hdx Hown HRx Hcase Htr Hlast. unfold insertTuple. rewrite Hlast, Hent.
    assert (HE : EInv (i_entry ix) 0 G) by (rewrite <- Hent; apply HI).
    destruct (eInsert_spec (i_entry ix) G b pg stack x HE Hat Hg Hx Hst Hox) as (es & lost & He & Hne & Hes & G' & HI' & HR' & HC').
    rewrite He. assert (Hown1 : forall t n, In t (cont ix1 G) -> t_data t = PTree n -> t_data x = PTree n -> cmp t x = 0%Z).
    { rewrite Hent. exact Hown. }
    assert (Hupd : forall s Gs, rows_chg (i_entry ix) G s Gs (samekey compareFn x) [x] -> upd_key ix G (set_entry ix1 s) Gs k items).
    { intros s Gs HR.
      assert (Hk : forall t, kcmp (t_key t) k <> 0%Z -> samekey compareFn x t = false /\ t <> x).
      { intros t Ht. split; [|intros ->; contradiction]. unfold samekey. apply Z.eqb_neq. intro E. apply Ht. eapply ktrans0; [exact E|exact Hkx]. }
      split; [|split].
      - intros t Ht. destruct (Hk t Ht) as [E1 E2]. cbn [set_entry i_entry]. rewrite (HR t). simpl. intuition congruence.
      - intros t Ht Hin. destruct Hsv as [_ Hv]. specialize (Hv t Hin). exact Hv.
      - assert (Hin : In x (contents s Gs)) by (apply HR; right; left; reflexivity).
        destruct Hcase as [(t & R & H1 & H2 & H3 & H4)|(H1 & H2 & H3)].
        + left. exists t, x, R, R'. split; [exact H1|]. split; [rewrite H2; exact Hkx|]. split; [exact Hin|]. split; [auto|]. split; [exact H3|].
          split; [exact HRx|exact H4].
        + right. split; [exact H1|]. exists x, R'. split; [exact Hin|]. split; [exact H2|]. split; [exact HRx|exact H3]. }
    eexists _, _. split; [reflexivity|]. split; [destruct lost; discriminate|]. split; [|split].
    - intros ->. destruct HC' as [-> _]; [|reflexivity]. rewrite <- Hent. apply HI. reflexivity.
    - apply Forall_app. split; [exact Htr|]. apply Forall_forall. intros s Hin. apply in_map_iff in Hin as (e & <- & Hin).
      rewrite Forall_forall in Hes. destruct (Hes e Hin) as (Gs & HIs & HRs). exists Gs. split.
      + eapply (put_inv c false ix1 G e Gs x); eauto; try discriminate. rewrite Hent. exact HRs.
      + right. exists items, []. rewrite app_nil_r. split; [reflexivity|]. apply Hupd. exact HRs.
    - intros _.
      assert (El : last (tr ++ map (set_entry ix1) es) ix = set_entry ix1 (last es (i_entry ix))).
      { destruct es as [|e es] using rev_ind; [congruence|]. rewrite map_app, app_assoc. cbn [map]. rewrite !last_last. reflexivity. }
      rewrite El. exists G'. split; [|apply Hupd; exact HR'].
      eapply (put_inv c c ix1 G _ G' x); eauto; [|rewrite Hent; exact HR'].
      intros ->. apply HC'. rewrite <- Hent. apply HI. reflexivity.
  Qed.

  Lemma same_refl ix G : same_view ix G ix G.
  Proof. split; [intro; tauto|intros t _; reflexivity]. Qed.

  Lemma fresh_fits0 (k : ekey K) items : Forall (store_ok k) items ->
    fits_page (altOf (k_att k)) (attrOf (k_att k)) (firstn (freshCount (altOf (k_att k)) (attrOf (k_att k)) items) items).
  Proof.
    intro Hs. apply fits_of_size.
    - apply Forall_forall. intros x Hx. rewrite Forall_forall in Hs. apply Hs. rewrite <- (firstn_skipn (freshCount (altOf (k_att k)) (attrOf (k_att k)) items) items). apply in_app_iff. left. exact Hx.
    - pose proof (fresh_fits (altOf (k_att k)) (attrOf (k_att k)) items ip_min 0%N 0 ltac:(unfold RumDataPageSize; lia)) as H.
      unfold freshCount. destruct (fresh_loop _ _ items ip_min 0 0) as [size n]. cbn zeta in H. rewrite Nat.sub_0_r in H. lia.
  Qed.

  Lemma valid_skipn (k : ekey K) n items : valid_batch (altOf (k_att k)) (attrOf (k_att k)) cmpA items ->
    valid_batch (altOf (k_att k)) (attrOf (k_att k)) cmpA (skipn n items).
  Proof.
    intros (A & B & C). rewrite <- (firstn_skipn n items) in A, B. apply ssorted_app in A as (_ & A & _). apply Forall_app in B as [_ B].
    split; [exact A|]. split; [exact B|]. destruct C as [C|C]; [left; rewrite skipn_length; lia|right; exact C].
  Qed.

  (** a list short enough for a tuple fits a page *)
  Lemma list_fits t R : t_data t = PList R -> et_ok t -> Forall (store_ok (t_key t)) R ->
    fits_page (altOf (k_att (t_key t))) (attrOf (k_att (t_key t))) R.
  Proof.
    intros Ed Ho Hs. apply fits_of_size; [exact Hs|]. unfold et_ok, tupsize in Ho. rewrite Ed in Ho. unfold altK, attrK, ksize, RumMaxItemSize in Ho.
    assert (Em : MAXALIGN (rawSize (t_key t)) = (0 + 8 * ((rawSize (t_key t) + 7) / 8))%N) by (unfold MAXALIGN; lia).
    rewrite Em in Ho. unfold MAXALIGN in Ho.
    rewrite psize_shift in Ho; [|exact (proj1 (Hatt _))|apply storable_item; exact Hs]. unfold RumDataPageSize. lia.
  Qed.
  Lemma psize_ge (k : ekey K) R s : Forall (store_ok k) R -> (s <= postingListSize (altOf (k_att k)) (attrOf (k_att k)) R ip_min s)%N.
  Proof.
    intro Hs. apply storable_item in Hs. destruct (posting_write_ok (altOf (k_att k)) (attrOf (k_att k)) R s ip_min Hs) as [bs Hb].
    rewrite (posting_size_eq _ _ R s ip_min bs Hs Hb). lia.
  Qed.

  Lemma rows_ins_self k R : rows_ins (rcmp k) R [] R.
  Proof. split; [auto|]. split; [auto|]. intros y []. Qed.
  Lemma rows_ins_all k items : rows_ins (rcmp k) [] items items.
  Proof. split; [intros x []|]. split; [auto|]. intros y Hy. exists y. split; [exact Hy|]. apply (tc_refl _ (ROK k)). Qed.
  Lemma rows_ins_att k1 k2 R u R' : k_att k1 = k_att k2 -> rows_ins (rcmp k1) R u R' -> rows_ins (rcmp k2) R u R'.
  Proof. intros E. unfold rows_ins. rewrite E. auto. Qed.

  Lemma findpage_E ix G k : EInv (i_entry ix) 0 G -> forall b pg x, t_key x = k -> at_ G 0 b -> get (i_entry ix) b = Some pg ->
    in_range cmp (slo G b) (shi G b) x ->
    let '(found, off) := et_find compareFn (p_items pg) x in
    if found then exists t, nth_error (p_items pg) (off - 1) = Some t /\ In t (cont ix G) /\ kcmp (t_key t) k = 0%Z
    else forall t, In t (cont ix G) -> kcmp (t_key t) k <> 0%Z.
  Proof.
    intros HI b pg x <- Hat Hg Hx.
    destruct (leaf_items cmp (et_ifit rawSize) true et_ok et_fit true (i_entry ix) 0 G HI b pg Hat Hg) as (Hs & Ho & _).
    pose proof (new_page compareFn HK (p_items pg) x Hs) as H.
    pose proof (found_in_leaf cmp OK (et_ifit rawSize) true et_ok et_fit true (i_entry ix) 0 G HI b pg x Hat Hg Hx) as Hf.
    pose proof (contents_in cmp (et_ifit rawSize) true et_ok et_fit true (i_entry ix) 0 G HI) as Hci.
    destruct (et_find compareFn (p_items pg) x) as [[|] off]; destruct H as (l1 & old & l2 & E & _ & H & H1 & H2).
    - destruct H as (y & -> & Ey & Hn). exists y. split; [exact Hn|]. split; [|exact Ey]. apply Hci. exists b, pg.
      split; [exact Hat|]. split; [exact Hg|]. rewrite E. apply in_app_iff. right; left; reflexivity.
    - subst old. intros t Ht Et. destruct (proj2 Hf (ex_intro _ t (conj Ht Et))) as (y & Hy & Ey).
      rewrite E in Hy. cbn [app] in Hy. apply in_app_iff in Hy as [Hy|Hy].
      + specialize (H1 y Hy). lia.
      + specialize (H2 y Hy). apply (cmp_lt_gt _ OK) in H2. lia.
  Qed.

  Lemma findpage c ix G k : IInv c ix G -> forall b pg x, t_key x = k -> at_ G 0 b -> get (i_entry ix) b = Some pg ->
    in_range cmp (slo G b) (shi G b) x ->
    let '(found, off) := et_find compareFn (p_items pg) x in
    if found then exists t, nth_error (p_items pg) (off - 1) = Some t /\ In t (cont ix G) /\ kcmp (t_key t) k = 0%Z
    else forall t, In t (cont ix G) -> kcmp (t_key t) k <> 0%Z.
  Proof. intro HI. exact (findpage_E ix G k (X_inv _ _ _ HI)). Qed.

  Theorem entryInsert_step c ix G build k items : IInv c ix G -> call_ok altOf attrOf cmpA rawSize (build, k, items) -> (tight = true \/ length items <= 1) ->
    exists tr out, rumEntryInsert compareFn altOf attrOf cmpA rawSize dflt build ix k items = Some (tr, out) /\
      out <> TooBig /\ (c = true -> out = Done) /\ Forall (step_ok ix G k items) tr /\
      (out = Done -> exists G', IInv c (last tr ix) G' /\ upd_key ix G (last tr ix) G' k items).
  Proof.
    intros HI [Hkf Hv] Hti. unfold call_key, call_rows in Hkf, Hv. cbn [fst snd] in Hkf, Hv. unfold rumEntryInsert.
    set (x := mkTup k (PList items)).
    destruct (eFindLeaf_spec compareFn altOf attrOf rawSize HK (i_entry ix) G x (X_inv _ _ _ HI)) as (b & stack & pg & Hfl & Hat & Hg & Hx & Hst).
    rewrite Hfl, Hg. pose proof (findpage c ix G k HI b pg x eq_refl Hat Hg Hx) as Hfp.
    destruct (et_find compareFn (p_items pg) x) as [found off]. destruct found.
    - destruct Hfp as (t & Hn & Hin & Ek). rewrite Hn. pose proof (katt_eq _ _ Ek) as Eatt.
      assert (Hdt := X_data _ _ _ HI t Hin). assert (Hot : et_ok t).
      { pose proof (contents_ok cmp (et_ifit rawSize) true et_ok et_fit true (i_entry ix) 0 G (X_inv _ _ _ HI)) as H.
        rewrite Forall_forall in H. auto. }
      destruct (t_data t) as [old|n] eqn:Ed.
      + (* posting list *)
        unfold data_ok in Hdt. rewrite Ed in Hdt. destruct Hdt as [Hso Hsto].
        assert (Hv' : valid_batch (altOf (k_att (t_key t))) (attrOf (k_att (t_key t))) cmpA items) by (rewrite Eatt; exact Hv).
        destruct Hv as (Hsi & Hsti & _). rewrite <- Eatt in Hsi, Hsti.
        destruct (merge_spec (rcmp (t_key t)) (ROK _) items old Hsi Hso) as [Hms Hmin].
        assert (Hmst : Forall (store_ok (t_key t)) (rumMergeRumItems (rcmp (t_key t)) items old)).
        { apply Forall_forall. intros y Hy. rewrite Forall_forall in Hsti, Hsto. apply Hmin in Hy as [Hy|[Hy _]]; auto. }
        assert (Hmr : rows_ins (rcmp k) old items (rumMergeRumItems (rcmp (t_key t)) items old)).
        { apply (rows_ins_att (t_key t)); [exact Eatt|]. split; [intros y Hy; apply Hmin; auto|]. split.
          - intros y Hy. apply Hmin in Hy as [Hy|[Hy _]]; auto.
          - intros y Hy. destruct (Exists_dec (fun z => rcmp (t_key t) y z = 0%Z) old) as [Hex|Hnex].
            + intro z. destruct (Z.eq_dec (rcmp (t_key t) y z) 0); auto.
            + apply Exists_exists in Hex as (z & Hz & E). exists z. split; [apply Hmin; auto|]. apply (cmp_sym_eq _ (ROK _)). exact E.
            + exists y. split; [|apply (tc_refl _ (ROK _))]. apply Hmin. right. split; [exact Hy|]. intros z Hz E. apply Hnex. apply Exists_exists. eauto. }
        unfold addItemPointersToLeafTuple. unfold altK at 1. unfold RumFormTuple at 1.
        set (m := rumMergeRumItems (rcmp (t_key t)) items old) in *. cbv zeta.
        assert (Hrange : forall p, in_range cmp (slo G b) (shi G b) (mkTup (t_key t) p)).
        { intro p. apply (in_range_eq cmp OK (slo G b) (shi G b) x); [|exact Hx]. unfold ecmp. cbn [t_key x]. apply (cmp_sym_eq _ KOK). exact Ek. }
        destruct (N.ltb_spec RumMaxItemSize (tsz (mkTup (t_key t) (PList m)))) as [L|L].
        * destruct (newPosting_spec build ix (t_key t) old items Hso Hsto (list_fits t old Ed Hot Hsto) Hv' Hti)
            as (tr & tt & Gt & Hnp & Htr & Hlast & HIt & HCt & HRt).
          rewrite Hnp. unfold RumFormTuple.
          assert (Hsz : et_ok (mkTup (t_key t) (PTree (length (i_trees ix))))).
          { unfold et_ok, tupsize in *. cbn [t_key t_data]. rewrite Ed in Hot.
            pose proof (psize_ge (t_key t) old (ksize rawSize (t_key t)) Hsto) as H. unfold altK, attrK in Hot. unfold MAXALIGN in *. lia. }
          destruct (N.ltb_spec RumMaxItemSize (tsz (mkTup (t_key t) (PTree (length (i_trees ix)))))) as [L'|_]; [unfold et_ok in Hsz; lia|].
          destruct (grown_inv c ix G tt HI) as [HIg Hsv].
          apply (install c ix G (grown ix tt) b stack pg _ k (contents tt Gt) items tr); auto.
          -- unfold data_ok. cbn [t_data t_key grown i_trees]. exists tt, Gt. rewrite nth_error_app2, Nat.sub_diag by lia. auto.
          -- intros t' n' Hin' Ed' [= <-]. exfalso. pose proof (X_data _ _ _ HI t' Hin') as Hd'. unfold data_ok in Hd'. rewrite Ed' in Hd'.
             destruct Hd' as (st & G0 & Hn0 & _). apply nth_some_lt in Hn0. lia.
          -- unfold tupleRows. cbn [t_data grown i_trees]. rewrite nth_error_app2, Nat.sub_diag by lia. cbn [nth_error]. unfold ptScan.
             eapply (scan_spec (rcmp (t_key t)) (ROK _)); eauto.
          -- left. exists t, old. cbn [t_key]. split; [exact Hin|]. split; [reflexivity|]. split; [unfold tupleRows; rewrite Ed; reflexivity|].
             apply (rows_ins_att (t_key t)); [exact Eatt|exact HRt].
          -- apply Forall_forall. intros s Hs. rewrite Forall_forall in Htr. destruct (Htr s Hs) as (t0 & ->).
             destruct (grown_inv c ix G t0 HI) as [HIg0 Hsv0]. exists G. split; [eapply IInv_weak; eauto|left; exact Hsv0].
        * apply (install c ix G ix b stack pg _ k m items []); auto.
          -- apply same_refl.
          -- unfold data_ok. cbn [t_data t_key]. auto.
          -- intros t' n' _ _ [=].
          -- left. exists t, old. cbn [t_key]. split; [exact Hin|]. split; [reflexivity|]. split; [unfold tupleRows; rewrite Ed; reflexivity|]. exact Hmr.
      + (* posting tree *)
        unfold data_ok in Hdt. rewrite Ed in Hdt. destruct Hdt as (st & Gt & Hnt & HIt & HCt).
        assert (HIt' : TInv k st 0 Gt) by (rewrite <- Eatt; exact HIt).
        destruct (insertPosting_spec build ix k n items st Gt Hnt HIt' Hv Hti) as (tr & lost & Hi & Htr & Hok & Hl).
        rewrite Hi. eexists _, _. split; [reflexivity|]. split; [destruct lost; discriminate|].
        assert (Hlen : n < length (i_trees ix)) by (eapply nth_some_lt; eauto).
        assert (Hst' : forall c' s Gs u, (c' = true -> c = true) -> TInv k s 0 Gs -> (c' = true -> complete s 0 Gs) -> rows_ins (rcmp k) (contents st Gt) u (contents s Gs) ->
                  IInv c' (set_tree ix n s) G /\ upd_key ix G (set_tree ix n s) G k u).
        { intros c' s Gs u Hcc HIs HCs HRs.
          assert (Hother : forall t', In t' (cont ix G) -> t' <> t -> t_data t' <> PTree n).
          { intros t' Ht' Hne E. apply Hne. exact (X_own _ _ _ HI t' t n Ht' Hin E Ed). }
          assert (Hkeep : forall t', In t' (cont ix G) -> t' <> t -> data_ok c' (set_tree ix n s) t' /\ keeps ix (set_tree ix n s) t').
          { intros t' Ht' Hne. pose proof (X_data _ _ _ HI t' Ht') as Hd. specialize (Hother t' Ht' Hne). unfold data_ok, keeps, tupleRows in *. cbn [set_tree i_trees].
            destruct (t_data t') as [R|n']; [auto|]. rewrite nth_upd_other by congruence. split; [|reflexivity].
            destruct Hd as (s' & G0 & H1 & H2 & H3). exists s', G0. auto. }
          split.
          - constructor; [exact (X_inv _ _ _ HI)|intro Hc; apply (X_comp _ _ _ HI); auto| |exact (X_own _ _ _ HI)].
            intros t' Ht'. destruct (Z.eq_dec (kcmp (t_key t') (t_key t)) 0) as [E|E].
            + assert (t' = t) as ->.
              { apply (ssorted_unique cmp OK (cont ix G)); auto. eapply (contents_sorted cmp OK); eauto. exact (X_inv _ _ _ HI). }
              unfold data_ok. rewrite Ed. exists s, Gs. cbn [set_tree i_trees]. rewrite nth_upd_same by exact Hlen. rewrite Eatt. auto.
            + apply Hkeep; [exact Ht'|]. intros ->. apply E. apply (tc_refl _ KOK).
          - split; [intros; cbn [set_tree i_entry]; tauto|]. split.
            + intros t' Hne Ht'. apply Hkeep; [exact Ht'|]. intros ->. contradiction.
            + left. exists t, t, (contents st Gt), (contents s Gs). split; [exact Hin|]. split; [exact Ek|]. split; [exact Hin|]. split; [reflexivity|].
              unfold tupleRows. rewrite Ed. cbn [set_tree i_trees]. rewrite Hnt, nth_upd_same by exact Hlen. unfold ptScan.
              split; [eapply (scan_spec (rcmp k) (ROK k)); eauto|]. split; [eapply (scan_spec (rcmp k) (ROK k)); eauto|exact HRs]. }
        split; [|split].
        * intros ->. rewrite (Hl (HCt eq_refl)). reflexivity.
        * apply Forall_forall. intros s Hs. apply in_map_iff in Hs as (s0 & <- & Hs0). rewrite Forall_forall in Htr.
          destruct (Htr s0 Hs0) as (u & v & E & Gs & HIs & HRs). exists G.
          destruct (Hst' false s0 Gs u ltac:(discriminate) HIs ltac:(discriminate) HRs) as [H1 H2]. split; [exact H1|right; eauto].
        * intro Eo. destruct lost; [discriminate|]. destruct (Hok eq_refl) as (G' & HI' & HR' & HC'). exists G.
          rewrite (last_map _ _ st); [apply (Hst' c _ G'); auto|]. destruct ix as [e ts]. unfold set_tree. cbn [i_entry i_trees] in *. f_equal.
          clear - Hnt. revert n Hnt. induction ts as [|y ts IH]; intros [|n] Hnt; cbn in *; try discriminate; [congruence|]. f_equal. auto.
    - (* a new key *)
      destruct Hv as (Hsi & Hsti & Hlen) eqn:Ev. clear Ev.
      unfold buildFreshLeafTuple, RumFormTuple. fold x.
      destruct (N.ltb_spec RumMaxItemSize (tsz x)) as [L|L].
      + assert (Hsz : et_ok (mkTup k (PTree (length (i_trees ix))))) by exact Hkf.
        destruct (N.ltb_spec RumMaxItemSize (tsz (mkTup k (PTree (length (i_trees ix)))))) as [L'|_]; [unfold et_ok in Hsz; lia|].
        unfold altK, attrK. set (n := freshCount (altOf (k_att k)) (attrOf (k_att k)) items).
        assert (Hf1 : ssorted (rcmp k) (firstn n items) /\ Forall (store_ok k) (firstn n items)).
        { rewrite <- (firstn_skipn n items) in Hsi, Hsti. apply ssorted_app in Hsi as (A & _ & _). apply Forall_app in Hsti as [B _]. auto. }
        destruct (newPosting_spec build ix k (firstn n items) (skipn n items) (proj1 Hf1) (proj2 Hf1) (fresh_fits0 k items Hsti) (valid_skipn k n items Hv) ltac:(destruct Hti as [->|Hti]; [left; reflexivity|right; rewrite skipn_length; lia]))
          as (tr & tt & Gt & Hnp & Htr & Hlast & HIt & HCt & HRt).
        rewrite Hnp. destruct (grown_inv c ix G tt HI) as [HIg Hsv].
        apply (install c ix G (grown ix tt) b stack pg _ k (contents tt Gt) items tr); auto.
        * apply (tc_refl _ KOK).
        * unfold data_ok. cbn [t_data t_key grown i_trees]. exists tt, Gt. rewrite nth_error_app2, Nat.sub_diag by lia. auto.
        * intros t' n' Hin' Ed' [= <-]. exfalso. pose proof (X_data _ _ _ HI t' Hin') as Hd'. unfold data_ok in Hd'. rewrite Ed' in Hd'.
          destruct Hd' as (st & G0 & Hn0 & _). apply nth_some_lt in Hn0. lia.
        * unfold tupleRows. cbn [t_data grown i_trees]. rewrite nth_error_app2, Nat.sub_diag by lia. cbn [nth_error]. unfold ptScan.
          eapply (scan_spec (rcmp k) (ROK _)); eauto.
        * right. split; [exact Hfp|]. split; [reflexivity|].
          pose proof (rows_ins_trans (rcmp k) [] _ _ _ _ (rows_ins_all k (firstn n items)) HRt) as H. rewrite firstn_skipn in H. exact H.
        * apply Forall_forall. intros s Hs. rewrite Forall_forall in Htr. destruct (Htr s Hs) as (t0 & ->).
          destruct (grown_inv c ix G t0 HI) as [HIg0 Hsv0]. exists G. split; [eapply IInv_weak; eauto|left; exact Hsv0].
      + apply (install c ix G ix b stack pg _ k items items []); auto.
        * apply same_refl.
        * apply (tc_refl _ KOK).
        * unfold data_ok. cbn [t_data t_key x]. auto.
        * intros t' n' _ _ [=].
        * right. split; [exact Hfp|]. split; [reflexivity|]. apply rows_ins_all.
  Qed.

  (** ** histories *)
  Notation given := (given compareFn).
  Lemma given_key k k' calls : kcmp k k' = 0%Z -> given k calls = given k' calls.
  Proof.
    intro E. unfold IndexSpec.given, given_to. do 2 f_equal. apply filter_ext. intros [k0 rows]. cbn [fst].
    assert (E' := cmp_sym_eq _ KOK _ _ E).
    destruct (Z.eqb_spec (kcmp k0 k) 0) as [A|A], (Z.eqb_spec (kcmp k0 k') 0) as [B|B]; auto; exfalso;
      [pose proof (ktrans0 _ _ _ A E)|pose proof (ktrans0 _ _ _ B E')]; contradiction.
  Qed.
  Lemma given_snoc k calls b k0 items : given k (calls ++ [(b, k0, items)]) = given k calls ++ (if (kcmp k0 k =? 0)%Z then items else []).
  Proof.
    unfold IndexSpec.given, given_to. rewrite map_app, filter_app, map_app, concat_app. f_equal. cbn [map filter call_key call_rows fst snd].
    destruct (_ =? 0)%Z; cbn; rewrite ?app_nil_r; reflexivity.
  Qed.
  Lemma given_none k calls : (forall c, In c calls -> kcmp (call_key c) k <> 0%Z) -> given k calls = [].
  Proof.
    induction calls as [|[[b k0] items] calls IH] using rev_ind; intro H; [reflexivity|]. rewrite given_snoc, IH.
    - destruct (Z.eqb_spec (kcmp k0 k) 0) as [E|E]; [|reflexivity]. exfalso. apply (H (b, k0, items)); [|exact E]. apply in_app_iff. right; left; reflexivity.
    - intros c Hc. apply H. apply in_app_iff. auto.
  Qed.

  Definition holdsAt (ix : istate) (G : ghost) (calls : list call) : Prop :=
    (forall t, In t (cont ix G) -> exists R, tupleRows ix t = Some R /\
       forall y, In y R <-> first_of (rcmp (t_key t)) (given (t_key t) calls) y) /\
    (forall k, In k (map t_key (cont ix G)) <-> first_of kcmp (map call_key calls) k).

  Lemma kfirst_in calls k : In k (map call_key calls) -> exists k', first_of kcmp (map call_key calls) k' /\ kcmp k' k = 0%Z.
  Proof.
    generalize (map (@call_key K) calls). clear calls. intros ks. revert k. induction ks as [|z ks IH] using rev_ind; intros k H; [destruct H|].
    apply in_app_iff in H as [H|[<-|[]]].
    - destruct (IH k H) as (k' & H1 & H2). exists k'. split; [apply firstof_snoc; auto|exact H2].
    - destruct (Exists_dec (fun y => kcmp y z = 0%Z) ks) as [Hex|Hn].
      + intro y. destruct (Z.eq_dec (kcmp y z) 0); auto.
      + apply Exists_exists in Hex as (y & Hy & E). destruct (IH y Hy) as (k' & H1 & H2). exists k'. split; [apply firstof_snoc; auto|]. eapply ktrans0; eauto.
      + exists z. split; [|apply (tc_refl _ KOK)]. apply firstof_snoc. right. split; [reflexivity|]. intros y Hy E. apply Hn. apply Exists_exists. eauto.
  Qed.

  Lemma keyRows_E ix G k : EInv (i_entry ix) 0 G -> (forall t, In t (cont ix G) -> tupleRows ix t <> None) ->
    (exists t R, In t (cont ix G) /\ kcmp (t_key t) k = 0%Z /\ tupleRows ix t = Some R /\ keyRows compareFn ix k = Some (Some R)) \/
    ((forall t, In t (cont ix G) -> kcmp (t_key t) k <> 0%Z) /\ keyRows compareFn ix k = Some None).
  Proof.
    intros HI Hro. unfold keyRows. set (x := mkTup k (PList [])).
    destruct (eFindLeaf_spec compareFn altOf attrOf rawSize HK (i_entry ix) G x HI) as (b & stack & pg & Hfl & Hat & Hg & Hx & Hst).
    rewrite Hfl, Hg. pose proof (findpage_E ix G k HI b pg x eq_refl Hat Hg Hx) as Hfp.
    destruct (et_find compareFn (p_items pg) x) as [[|] off].
    - left. destruct Hfp as (t & Hn & Hin & Ek). rewrite Hn. specialize (Hro t Hin). destruct (tupleRows ix t) as [R|] eqn:HR; [|congruence]. exists t, R. auto.
    - right. auto.
  Qed.
  Lemma keyRows_spec c ix G k : IInv c ix G ->
    (exists t R, In t (cont ix G) /\ kcmp (t_key t) k = 0%Z /\ tupleRows ix t = Some R /\ keyRows compareFn ix k = Some (Some R)) \/
    ((forall t, In t (cont ix G) -> kcmp (t_key t) k <> 0%Z) /\ keyRows compareFn ix k = Some None).
  Proof.
    intro HI. apply (keyRows_E ix G k (X_inv _ _ _ HI)). intros t Ht. destruct (rows_of c ix t (X_data _ _ _ HI t Ht)) as (R & HR & _). congruence.
  Qed.
  Lemma tuples_spec c ix G : IInv c ix G -> allTuples ix = Some (cont ix G) /\ ssorted kcmp (map t_key (cont ix G)).
  Proof.
    intro HI. split.
    - unfold allTuples. eapply (scan_spec cmp OK); eauto. exact (X_inv _ _ _ HI).
    - assert (Hs : ssorted cmp (cont ix G)) by (eapply (contents_sorted cmp OK); eauto; exact (X_inv _ _ _ HI)).
      revert Hs. generalize (cont ix G). induction l as [|t l IH]; intro Hs; cbn [map]; [constructor|].
      apply ssorted_inv in Hs as [Hs Hf]. apply ssorted_cons; [auto|]. apply Forall_map. exact Hf.
  Qed.

  Lemma holdsAt_index c ix G calls : IInv c ix G -> holdsAt ix G calls -> index_holds compareFn altOf cmpA ix calls.
  Proof.
    intros HI [Hr Hk]. split.
    - intro k. destruct (keyRows_spec c ix G k HI) as [(t & R & Hin & Ek & HR & E)|[Hn E]]; rewrite E.
      + exists (Some R). split; [reflexivity|]. destruct (rows_of c ix t (X_data _ _ _ HI t Hin)) as (R' & HR' & Hs & _). rewrite HR in HR'. injection HR' as <-.
        split; [|split].
        * assert (H : In (t_key t) (map call_key calls)) by (eapply firstof_in; apply Hk; apply in_map; exact Hin).
          apply in_map_iff in H as (c0 & E0 & Hc0). exists c0. split; [exact Hc0|]. rewrite E0. exact Ek.
        * rewrite <- (katt_eq _ _ Ek). exact Hs.
        * destruct (Hr t Hin) as (R' & HR' & Hf). rewrite HR in HR'. injection HR' as <-. rewrite <- (katt_eq _ _ Ek), <- (given_key _ _ calls Ek). exact Hf.
      + exists None. split; [reflexivity|]. intros c0 Hc0 E0. destruct (kfirst_in calls (call_key c0) (in_map _ _ _ Hc0)) as (k' & H1 & H2).
        apply Hk in H1. apply in_map_iff in H1 as (t & E1 & Hin). apply (Hn t Hin). rewrite E1. eapply ktrans0; eauto.
    - exists (cont ix G). destruct (tuples_spec c ix G HI) as [A B]. split; [exact A|]. split; [exact B|]. exact Hk.
  Qed.

  Lemma upd_holds c ix G ix' G' calls b k items : IInv c ix G -> IInv false ix' G' -> holdsAt ix G calls -> upd_key ix G ix' G' k items ->
    ssorted (rcmp k) items -> holdsAt ix' G' (calls ++ [(b, k, items)]).
  Proof.
    intros HI HI' [Hr Hk] (U1 & U2 & U3) Hsi.
    assert (Huniq : forall t1 t2, In t1 (cont ix' G') -> In t2 (cont ix' G') -> kcmp (t_key t1) (t_key t2) = 0%Z -> t1 = t2).
    { intros t1 t2 H1 H2 E. apply (ssorted_unique cmp OK (cont ix' G')); auto. eapply (contents_sorted cmp OK); eauto. exact (X_inv _ _ _ HI'). }
    (* the tuple of the key *)
    assert (Hnew : exists t' R', In t' (cont ix' G') /\ kcmp (t_key t') k = 0%Z /\ tupleRows ix' t' = Some R' /\
              (forall y, In y R' <-> first_of (rcmp k) (given k calls ++ items) y) /\
              ((In (t_key t') (map t_key (cont ix G))) \/ (t_key t' = k /\ forall t, In t (cont ix G) -> kcmp (t_key t) k <> 0%Z))).
    { destruct U3 as [(t & t' & R & R' & H1 & H2 & H3 & H4 & H5 & H6 & H7)|(H1 & t' & R' & H2 & H3 & H4 & H5)].
      - exists t', R'. split; [exact H3|]. split; [rewrite H4; exact H2|]. split; [exact H6|]. split; [|left; rewrite H4; apply in_map; exact H1].
        destruct (rows_of false ix' t' (X_data _ _ _ HI' t' H3)) as (R2 & E2 & Hs2 & _). rewrite H6 in E2. injection E2 as <-. rewrite H4, (katt_eq _ _ H2) in Hs2.
        destruct (Hr t H1) as (R2 & E2 & Hf). rewrite H5 in E2. injection E2 as <-. rewrite (katt_eq _ _ H2), (given_key _ _ calls H2) in Hf.
        apply (rows_ins_first (altOf (k_att k)) cmpA HA (given k calls) R items R' Hs2 Hsi Hf H7).
      - exists t', R'. split; [exact H2|]. split; [rewrite H3; apply (tc_refl _ KOK)|]. split; [exact H4|]. split; [|right; auto].
        destruct (rows_of false ix' t' (X_data _ _ _ HI' t' H2)) as (R2 & E2 & Hs2 & _). rewrite H4 in E2. injection E2 as <-. rewrite H3 in Hs2.
        assert (Hg : given k calls = []).
        { apply given_none. intros c0 Hc0 E0. destruct (kfirst_in calls (call_key c0) (in_map _ _ _ Hc0)) as (k' & K1 & K2).
          apply Hk in K1. apply in_map_iff in K1 as (t & E1 & Hin). apply (H1 t Hin). rewrite E1. eapply ktrans0; eauto. }
        rewrite Hg. apply (rows_ins_first (altOf (k_att k)) cmpA HA [] [] items R' Hs2 Hsi); [|exact H5].
        intro y. split; [intros []|]. intro H. apply firstof_in in H. destruct H. }
    destruct Hnew as (t' & R' & N1 & N2 & N3 & N4 & N5). split.
    - intros t Ht. destruct (Z.eq_dec (kcmp (t_key t) k) 0) as [E|E].
      + assert (t = t') as -> by (apply Huniq; auto; eapply ktrans0; [exact E|apply (cmp_sym_eq _ KOK); exact N2]).
        exists R'. split; [exact N3|]. intro y. rewrite (given_key _ _ _ E), given_snoc, (katt_eq _ _ E), (tc_refl _ KOK). cbn [Z.eqb]. apply N4.
      + assert (Ht0 := Ht). apply (U1 t E) in Ht. destruct (Hr t Ht) as (R & HR & Hf). exists R. split; [rewrite (U2 t E Ht); exact HR|].
        rewrite given_snoc. replace (kcmp k (t_key t) =? 0)%Z with false; [rewrite app_nil_r; exact Hf|].
        symmetry. apply Z.eqb_neq. intro E'. apply E. apply (cmp_sym_eq _ KOK). exact E'.
    - intro k0. rewrite map_app. cbn [map call_key fst snd]. rewrite (firstof_snoc kcmp). rewrite <- (Hk k0). split.
      + intro H. apply in_map_iff in H as (t & <- & Ht). destruct (Z.eq_dec (kcmp (t_key t) k) 0) as [E|E].
        * assert (t = t') as -> by (apply Huniq; auto; eapply ktrans0; [exact E|apply (cmp_sym_eq _ KOK); exact N2]).
          destruct N5 as [N5|[N5 N6]]; [left; exact N5|right]. split; [exact N5|]. intros z Hz Ez.
          destruct (kfirst_in calls z Hz) as (k' & K1 & K2). apply Hk in K1. apply in_map_iff in K1 as (t & E1 & Hin). apply (N6 t Hin). rewrite E1. eapply ktrans0; eauto.
        * left. apply in_map. apply U1; auto.
      + intros [H|[-> H]].
        * apply in_map_iff in H as (t & <- & Ht). destruct (Z.eq_dec (kcmp (t_key t) k) 0) as [E|E]; [|apply in_map; apply U1; auto].
          destruct N5 as [N5|[_ N6]]; [|exfalso; exact (N6 t Ht E)]. apply in_map_iff in N5 as (t2 & E2 & Ht2).
          assert (t2 = t) as ->.
          { apply (ssorted_unique cmp OK (cont ix G)); auto; [eapply (contents_sorted cmp OK); eauto; exact (X_inv _ _ _ HI)|].
            unfold ecmp. rewrite E2. eapply ktrans0; [exact N2|apply (cmp_sym_eq _ KOK); exact E]. }
          rewrite E2. apply in_map. exact N1.
        * destruct N5 as [N5|[N5 _]]; [|rewrite <- N5; apply in_map; exact N1].
          exfalso. apply Hk in N5. apply firstof_in in N5. exact (H _ N5 N2).
  Qed.

  Lemma same_holds c ix G ix' G' calls : IInv c ix G -> holdsAt ix G calls -> same_view ix G ix' G' -> holdsAt ix' G' calls.
  Proof.
    intros HI [Hr Hk] [S1 S2]. split.
    - intros t Ht. apply S1 in Ht. destruct (Hr t Ht) as (R & HR & Hf). exists R. split; [rewrite (S2 t Ht); exact HR|exact Hf].
    - intro k. rewrite <- Hk. rewrite !in_map_iff. split; intros (t & E & Ht); exists t; (split; [exact E|]); apply S1; exact Ht.
  Qed.

  Lemma empty_inv : exists G, IInv true (emptyIndex dflt) G /\ cont (emptyIndex dflt) G = [].
  Proof.
    exists (mkG [[0]] (fun _ => BMin) (fun _ => BMax)).
    assert (Ec : cont (emptyIndex dflt) (mkG [[0]] (fun _ => BMin) (fun _ => BMax)) = []) by reflexivity. split; [|exact Ec]. constructor.
    - constructor.
      + exists []. reflexivity.
      + cbn. constructor; [intros []|constructor].
      + intros [|h] L H; cbn in H; [|destruct h; discriminate]. injection H as <-. cbn. eexists. split; [reflexivity|]. cbn. auto.
      + intros h b (L & HL & Hb). destruct h as [|h]; cbn in HL; [|destruct h; discriminate]. injection HL as <-.
        destruct Hb as [<-|[]]. eexists. split; [reflexivity|]. cbn [p_leaf p_deleted p_left p_right].
        split; [reflexivity|]. split; [reflexivity|]. split; [unfold blt; cbn; lia|]. split; [auto|].
        split; [intros b' E; discriminate|]. cbn [body]. unfold leaf_body. cbn. split; [reflexivity|]. split; [reflexivity|].
        split; [constructor|]. split; [constructor|]. split; [unfold EntryTreeProof.et_fit; cbn; unfold entryPageSpace; lia|]. split.
        * intros x [].
        * intros _ E. congruence.
    - intros _ h b (L & HL & Hb) Hn. destruct h as [|h]; cbn in HL; [|destruct h; discriminate]. injection HL as <-.
      destruct Hb as [<-|[]]. congruence.
    - rewrite Ec. intros t [].
    - rewrite Ec. intros t1 t2 n [].
  Qed.

  Lemma run_index calls : (tight = true \/ Forall (fun c => length (call_rows c) <= 1) calls) -> forall ix G done, IInv true ix G -> holdsAt ix G done -> Forall (call_ok altOf attrOf cmpA rawSize) calls ->
    exists ix' G', indexRun compareFn altOf attrOf cmpA rawSize dflt ix calls = Some ix' /\ IInv true ix' G' /\ holdsAt ix' G' (done ++ calls).
  Proof.
    induction calls as [|[[b k] items] calls IH]; intros Hti ix G done HI Hh Hc; cbn [indexRun].
    - exists ix, G. rewrite app_nil_r. auto.
    - apply Forall_cons_iff in Hc as [Hc1 Hc].
      assert (Hti1 : (tight = true \/ length items <= 1) /\ (tight = true \/ Forall (fun c => length (call_rows c) <= 1) calls)).
      { destruct Hti as [Hti|Hti]; [auto|]. apply Forall_cons_iff in Hti as [H1 H2]. auto. }
      destruct Hti1 as [Hti1 Hti2]. specialize (IH Hti2). destruct (entryInsert_step true ix G b k items HI Hc1 Hti1) as (tr & out & Hi & _ & Hd & _ & Hf).
      rewrite Hi. rewrite (Hd eq_refl) in *. destruct (Hf eq_refl) as (G' & HI' & HU).
      destruct (IH (last tr ix) G' (done ++ [(b, k, items)]) HI') as (ix2 & G2 & H1 & H2 & H3); [|exact Hc|].
      + apply (upd_holds true ix G (last tr ix) G' done b k items HI (IInv_weak _ _ _ HI') Hh HU). apply Hc1.
      + exists ix2, G2. rewrite <- app_assoc in H3. auto.
  Qed.
  Lemma empty_holds G : cont (emptyIndex dflt) G = [] -> holdsAt (emptyIndex dflt) G [].
  Proof. intro Ec. unfold holdsAt. rewrite Ec. split; [intros t []|]. intro k. split; [intros []|]. intro H. apply firstof_in in H. destruct H. Qed.

  Theorem index_history calls : tight = true -> Forall (call_ok altOf attrOf cmpA rawSize) calls ->
    exists ix, indexRun compareFn altOf attrOf cmpA rawSize dflt (emptyIndex dflt) calls = Some ix /\ index_holds compareFn altOf cmpA ix calls.
  Proof.
    intros Ht Hc. destruct empty_inv as (G & HI & Ec). destruct (run_index calls (or_introl Ht) (emptyIndex dflt) G [] HI (empty_holds G Ec) Hc) as (ix & G' & H1 & H2 & H3).
    exists ix. split; [exact H1|]. eapply holdsAt_index; eauto.
  Qed.

  (** a crash inside one more insertion *)
  Theorem index_crash calls b k items : tight = true -> Forall (call_ok altOf attrOf cmpA rawSize) calls -> call_ok altOf attrOf cmpA rawSize (b, k, items) ->
    exists ix tr, indexRun compareFn altOf attrOf cmpA rawSize dflt (emptyIndex dflt) calls = Some ix /\
      rumEntryInsert compareFn altOf attrOf cmpA rawSize dflt b ix k items = Some (tr, Done) /\
      index_holds compareFn altOf cmpA ix calls /\
      forall s, In s tr -> index_holds compareFn altOf cmpA s calls \/ exists u v, items = u ++ v /\ index_holds compareFn altOf cmpA s (calls ++ [(b, k, u)]).
  Proof.
    intros Ht Hc Hc1. destruct empty_inv as (G & HI & Ec). destruct (run_index calls (or_introl Ht) (emptyIndex dflt) G [] HI (empty_holds G Ec) Hc) as (ix & G' & H1 & H2 & H3).
    destruct (entryInsert_step true ix G' b k items H2 Hc1 (or_introl Ht)) as (tr & out & Hi & _ & Hd & Htr & Hf). specialize (Hd eq_refl). subst out.
    exists ix, tr. split; [exact H1|]. split; [exact Hi|]. split; [eapply holdsAt_index; eauto|]. intros s Hs. rewrite Forall_forall in Htr.
    destruct (Htr s Hs) as (Gs & HIs & [Hsv|(u & v & E & HU)]).
    - left. eapply holdsAt_index; [exact HIs|]. exact (same_holds true ix G' s Gs calls H2 H3 Hsv).
    - right. exists u, v. split; [exact E|]. eapply holdsAt_index; [exact HIs|]. apply (upd_holds true ix G' s Gs calls b k u H2 HIs H3 HU).
      destruct Hc1 as [_ (Hs' & _)]. cbn [call_rows snd] in Hs'. rewrite E in Hs'. apply ssorted_app in Hs' as (H & _). exact H.
  Qed.

  (** ** crash histories *)
  Definition betweenAt (ix : istate) (G : ghost) (acked tried : list call) : Prop :=
    (forall t, In t (cont ix G) -> exists R, tupleRows ix t = Some R /\
       (forall x, In x (given (t_key t) acked) -> exists y, In y R /\ rcmp (t_key t) y x = 0%Z) /\
       (forall x, In x R -> In x (given (t_key t) tried))) /\
    (forall c, In c acked -> exists t, In t (cont ix G) /\ kcmp (t_key t) (call_key c) = 0%Z) /\
    (forall t, In t (cont ix G) -> In (t_key t) (map call_key tried)).

  Lemma betweenAt_index c ix G acked tried : IInv c ix G -> betweenAt ix G acked tried -> index_between compareFn altOf cmpA ix acked tried.
  Proof.
    intros HI (Hr & Ha & Ht). split.
    - intro k. destruct (keyRows_spec c ix G k HI) as [(t & R & Hin & Ek & HR & E)|[Hn E]]; rewrite E.
      + exists (Some R). split; [reflexivity|]. destruct (rows_of c ix t (X_data _ _ _ HI t Hin)) as (R' & HR' & Hs & _). rewrite HR in HR'. injection HR' as <-.
        destruct (Hr t Hin) as (R' & HR' & Hf1 & Hf2). rewrite HR in HR'. injection HR' as <-.
        rewrite <- (katt_eq _ _ Ek), <- (given_key _ _ acked Ek), <- (given_key _ _ tried Ek).
        split; [|auto]. pose proof (Ht t Hin) as H. apply in_map_iff in H as (c0 & E0 & Hc0). exists c0. split; [exact Hc0|]. rewrite E0. exact Ek.
      + exists None. split; [reflexivity|]. intros c0 Hc0 E0. destruct (Ha c0 Hc0) as (t & Hin & E1). apply (Hn t Hin). eapply ktrans0; eauto.
    - exists (cont ix G). destruct (tuples_spec c ix G HI) as [A B]. auto.
  Qed.

  Lemma between_more ix G acked tried extra : betweenAt ix G acked tried -> betweenAt ix G acked (tried ++ [extra]).
  Proof.
    intros (Hr & Ha & Ht). split; [|split; [exact Ha|]].
    - intros t Hin. destruct (Hr t Hin) as (R & HR & H1 & H2). exists R. split; [exact HR|]. split; [exact H1|]. intros x Hx.
      destruct extra as [[b0 k0] u0]. rewrite given_snoc. apply in_app_iff. auto.
    - intros t Hin. rewrite map_app. apply in_app_iff. auto.
  Qed.
  Lemma same_between ix G ix' G' acked tried : betweenAt ix G acked tried -> same_view ix G ix' G' -> betweenAt ix' G' acked tried.
  Proof.
    intros (Hr & Ha & Ht) [S1 S2]. split; [|split].
    - intros t Hin. apply S1 in Hin. destruct (Hr t Hin) as (R & HR & H). exists R. split; [rewrite (S2 t Hin); exact HR|exact H].
    - intros c Hc. destruct (Ha c Hc) as (t & Hin & E). exists t. split; [apply S1; exact Hin|exact E].
    - intros t Hin. apply Ht. apply S1. exact Hin.
  Qed.
  Lemma upd_between ix G ix' G' acked tried b k u v (ackd : bool) : IInv false ix G -> IInv false ix' G' ->
    betweenAt ix G acked tried -> upd_key ix G ix' G' k u -> (ackd = true -> v = []) ->
    betweenAt ix' G' (if ackd then acked ++ [(b, k, u ++ v)] else acked) (tried ++ [(b, k, u ++ v)]).
  Proof.
    intros HI HI' (Hr & Ha & Ht) (U1 & U2 & U3) Hv.
    assert (Huniq : forall t1 t2, In t1 (cont ix' G') -> In t2 (cont ix' G') -> kcmp (t_key t1) (t_key t2) = 0%Z -> t1 = t2).
    { intros t1 t2 H1 H2 E. apply (ssorted_unique cmp OK (cont ix' G')); auto. eapply (contents_sorted cmp OK); eauto. exact (X_inv _ _ _ HI'). }
    assert (Hold : forall t c, In c acked -> (forall t, In t (cont ix G) -> kcmp (t_key t) k <> 0%Z) -> kcmp t k = 0%Z -> kcmp (call_key c) t <> 0%Z).
    { intros t c Hc Hno Et E. destruct (Ha c Hc) as (t0 & H1 & H2). apply (Hno t0 H1). eapply ktrans0; [exact H2|]. eapply ktrans0; eauto. }
    assert (Hnew : exists t' R', In t' (cont ix' G') /\ kcmp (t_key t') k = 0%Z /\ tupleRows ix' t' = Some R' /\
              (forall x, In x (given k acked) \/ In x u -> exists y, In y R' /\ rcmp k y x = 0%Z) /\
              (forall x, In x R' -> In x (given k tried) \/ In x u) /\
              In (t_key t') (map call_key tried ++ [k])).
    { destruct U3 as [(t & t' & R & R' & H1 & H2 & H3 & H4 & H5 & H6 & A & B & C)|(H1 & t' & R' & H2 & H3 & H4 & A & B & C)].
      - exists t', R'. split; [exact H3|]. split; [rewrite H4; exact H2|]. split; [exact H6|].
        destruct (Hr t H1) as (R2 & E2 & Hf1 & Hf2). rewrite H5 in E2. injection E2 as <-.
        rewrite (katt_eq _ _ H2), (given_key _ _ acked H2) in Hf1. rewrite (given_key _ _ tried H2) in Hf2. split; [|split].
        + intros x [Hx|Hx]; [|auto]. destruct (Hf1 x Hx) as (y & Hy & E). exists y. auto.
        + intros x Hx. destruct (B x Hx); auto.
        + apply in_app_iff. left. rewrite H4. auto.
      - exists t', R'. split; [exact H2|]. split; [rewrite H3; apply (tc_refl _ KOK)|]. split; [exact H4|].
        assert (Hg : given k acked = []).
        { apply given_none. intros c Hc. apply (Hold k c Hc H1). apply (tc_refl _ KOK). }
        rewrite Hg. split; [|split].
        + intros x [[]|Hx]. auto.
        + intros x Hx. destruct (B x Hx) as [[]|Hx']. auto.
        + apply in_app_iff. right. left. auto. }
    destruct Hnew as (t' & R' & N1 & N2 & N3 & N4 & N4' & N5).
    assert (Hgiv : forall k0 x, In x (given k0 (if ackd then acked ++ [(b, k, u ++ v)] else acked)) -> In x (given k0 acked) \/ (kcmp k k0 = 0%Z /\ In x u)).
    { intros k0 x. destruct ackd; [|auto]. rewrite (Hv eq_refl), app_nil_r, given_snoc, in_app_iff. destruct (Z.eqb_spec (kcmp k k0) 0); simpl; tauto. }
    split; [|split].
    - intros t Hin. destruct (Z.eq_dec (kcmp (t_key t) k) 0) as [E|E].
      + assert (t = t') as -> by (apply Huniq; auto; eapply ktrans0; [exact E|apply (cmp_sym_eq _ KOK); exact N2]).
        exists R'. split; [exact N3|]. split.
        * intros x Hx. rewrite (katt_eq _ _ E). apply N4. apply Hgiv in Hx. rewrite (given_key _ _ acked E) in Hx. tauto.
        * intros x Hx. rewrite (given_key _ _ _ E), given_snoc, (tc_refl _ KOK). cbn [Z.eqb]. rewrite !in_app_iff. destruct (N4' x Hx); auto.
      + assert (Hin0 := Hin). apply (U1 t E) in Hin. destruct (Hr t Hin) as (R & HR & Hf1 & Hf2). exists R. split; [rewrite (U2 t E Hin); exact HR|]. split.
        * intros x Hx. apply Hf1. apply Hgiv in Hx as [Hx|[Hx _]]; [exact Hx|]. exfalso. apply E. apply (cmp_sym_eq _ KOK). exact Hx.
        * intros x Hx. rewrite given_snoc. apply in_app_iff. auto.
    - assert (Hk : exists t, In t (cont ix' G') /\ kcmp (t_key t) k = 0%Z) by eauto.
      assert (Hacked : forall c, In c acked -> exists t, In t (cont ix' G') /\ kcmp (t_key t) (call_key c) = 0%Z).
      { intros c Hc. destruct (Ha c Hc) as (t & Hin & E). destruct (Z.eq_dec (kcmp (t_key t) k) 0) as [E'|E'].
        - exists t'. split; [exact N1|]. eapply ktrans0; [exact N2|]. eapply ktrans0; [apply (cmp_sym_eq _ KOK); exact E'|exact E].
        - exists t. split; [apply U1; auto|exact E]. }
      intros c Hc. destruct ackd; [|auto]. apply in_app_iff in Hc as [Hc|[<-|[]]]; [auto|]. exact Hk.
    - intros t Hin. rewrite map_app. cbn [map call_key fst snd]. destruct (Z.eq_dec (kcmp (t_key t) k) 0) as [E|E].
      + assert (t = t') as -> by (apply Huniq; auto; eapply ktrans0; [exact E|apply (cmp_sym_eq _ KOK); exact N2]). exact N5.
      + apply in_app_iff. left. apply Ht. apply U1; auto.
  Qed.

  Lemma ireaches_inv ix acked tried : tight = true -> ireaches compareFn altOf attrOf cmpA rawSize dflt ix acked tried ->
    exists G, IInv false ix G /\ betweenAt ix G acked tried.
  Proof.
    intro Ht. induction 1 as [|ix acked tried b k rows tr Hr (G & HI & Hb) Hc Hi|ix acked tried b k rows tr out s Hr (G & HI & Hb) Hc Hi Hs].
    - destruct empty_inv as (G & HI & Ec). exists G. split; [eapply IInv_weak; eauto|]. unfold betweenAt. rewrite Ec. split; [intros t []|]. split; [intros c []|intros t []].
    - destruct (entryInsert_step false ix G b k rows HI Hc (or_introl Ht)) as (tr' & out & Hi' & _ & _ & _ & Hf). rewrite Hi in Hi'. injection Hi' as <- <-.
      destruct (Hf eq_refl) as (G' & HI' & HU). exists G'. split; [exact HI'|].
      pose proof (upd_between ix G (last tr ix) G' acked tried b k rows [] true HI HI' Hb HU (fun _ => eq_refl)) as H. rewrite app_nil_r in H. exact H.
    - destruct Hs as [<-|Hs]; [exists G; split; [exact HI|apply between_more; exact Hb]|].
      destruct (entryInsert_step false ix G b k rows HI Hc (or_introl Ht)) as (tr' & out' & Hi' & _ & _ & Htr & _). rewrite Hi in Hi'. injection Hi' as <- <-.
      rewrite Forall_forall in Htr. destruct (Htr s Hs) as (Gs & HIs & [Hsv|(u & v & -> & HU)]); exists Gs; (split; [exact HIs|]).
      + apply between_more. eapply same_between; eauto.
      + exact (upd_between ix G s Gs acked tried b k u v false HI HIs Hb HU ltac:(discriminate)).
  Qed.

  Theorem index_crashes ix acked tried : tight = true -> ireaches compareFn altOf attrOf cmpA rawSize dflt ix acked tried ->
    index_between compareFn altOf cmpA ix acked tried /\
    forall b k rows, call_ok altOf attrOf cmpA rawSize (b, k, rows) ->
      exists tr out, rumEntryInsert compareFn altOf attrOf cmpA rawSize dflt b ix k rows = Some (tr, out) /\ out <> TooBig.
  Proof.
    intros Ht H. destruct (ireaches_inv ix acked tried Ht H) as (G & HI & Hb). split; [eapply betweenAt_index; eauto|].
    intros b k rows Hc. destruct (entryInsert_step false ix G b k rows HI Hc (or_introl Ht)) as (tr & out & Hi & Ho & _). eauto.
  Qed.

  (** a key too large for a tuple is refused and changes nothing *)
  Theorem index_too_big ix acked tried b k rows : tight = true -> ireaches compareFn altOf attrOf cmpA rawSize dflt ix acked tried ->
    ~ key_fits rawSize k -> Forall (store_ok k) rows -> (forall c, In c tried -> kcmp (call_key c) k <> 0%Z) ->
    rumEntryInsert compareFn altOf attrOf cmpA rawSize dflt b ix k rows = Some ([], TooBig).
  Proof.
    intros Hti H Hk Hst Hno. destruct (ireaches_inv ix acked tried Hti H) as (G & HI & _ & _ & Ht). unfold rumEntryInsert. set (x := mkTup k (PList rows)).
    destruct (eFindLeaf_spec compareFn altOf attrOf rawSize HK (i_entry ix) G x (X_inv _ _ _ HI)) as (b0 & stack & pg & Hfl & Hat & Hg & Hx & _).
    rewrite Hfl, Hg. pose proof (findpage false ix G k HI b0 pg x eq_refl Hat Hg Hx) as Hfp.
    destruct (et_find compareFn (p_items pg) x) as [[|] off].
    - exfalso. destruct Hfp as (t & _ & Hin & E). pose proof (Ht t Hin) as Hm. apply in_map_iff in Hm as (c & Ec & Hc). apply (Hno c Hc). rewrite Ec. exact E.
    - unfold buildFreshLeafTuple, RumFormTuple. fold x. unfold key_fits in Hk.
      assert (L1 : (RumMaxItemSize < tsz x)%N).
      { unfold tupsize, x. cbn [t_data t_key]. pose proof (psize_ge k rows (ksize rawSize k) Hst) as Hp. unfold ksize, altK, attrK, MAXALIGN in *. lia. }
      destruct (N.ltb_spec RumMaxItemSize (tsz x)); [|lia].
      assert (L2 : (RumMaxItemSize < tsz (mkTup k (PTree (length (i_trees ix)))))%N) by (unfold tupsize; cbn [t_data t_key]; unfold ksize; lia).
      destruct (N.ltb_spec RumMaxItemSize (tsz (mkTup k (PTree (length (i_trees ix)))))); [|lia]. reflexivity.
  Qed.
End Ix.
