(** The index while insertions run: every state's ghosts, and the scan of one key.  Proof file. *)
From Verif Require Import Base Ord OrdProof Codec CodecSpec CodecProof LeafPage LeafSpec LeafCodec LeafCodecProof PropCodecProof
  Entries EntriesProof Bulk BulkSpec BTree BTreeInv BTreeFind BTreeParent BTreeSplit BTreeIns
  PostingTree PostingTreeSpec PostingTreeProof PropTreeProof EntryTree EntryTreeProof IndexSpec IndexProof
  ScanEntry ScanConc ScanConcSpec ScanConcTree ScanConcProof PropScanConc IndexConc IndexConcSpec.
From Coq Require Import NArith ZArith Lia List Bool Arith.
Import ListNotations.

Lemma findLeafC_more {T} (cmp : T -> T -> Z) rbound locate sched root x : forall fuel d t b t' b',
  findLeafC cmp rbound locate sched fuel t root b x = DLeaf t' b' -> findLeafC cmp rbound locate sched (fuel + d) t root b x = DLeaf t' b'.
Proof.
  induction fuel as [|f IH]; intros d t b t' b' H; [discriminate|]. cbn [findLeafC Nat.add] in *.
  destruct (get (sched t) b) as [pg|]; [|discriminate]. destruct (negb (b =? root) && moveRight cmp rbound pg x).
  - destruct (p_right pg) as [r|]; [|discriminate]. destruct (get (sched (S t)) r) as [pg'|]; [|discriminate].
    destruct (negb _ || p_deleted pg'); [discriminate|]. apply IH. exact H.
  - destruct (p_leaf pg); [exact H|]. destruct (nth_error _ _) as [[k c]|]; [|discriminate]. apply IH. exact H.
Qed.
Lemma leftmostC_more {T} (sched : nat -> list (page T)) : forall fuel d t b t' b',
  leftmostC sched fuel t b = DLeaf t' b' -> leftmostC sched (fuel + d) t b = DLeaf t' b'.
Proof.
  induction fuel as [|f IH]; intros d t b t' b' H; [discriminate|]. cbn [leftmostC Nat.add] in *.
  destruct (get (sched t) b) as [pg|]; [|discriminate]. destruct (p_leaf pg); [exact H|].
  destruct (p_downs pg) as [|[k c] r]; [discriminate|]. apply IH. exact H.
Qed.
Lemma startC_more (sched : nat -> list (page row)) fuel d att junk c : startC sched fuel att junk = Some c -> startC sched (fuel + d) att junk = Some c.
Proof.
  unfold startC, row in *. destruct (leftmostC sched fuel 0 0) as [| |t b] eqn:E; [intro H; discriminate H|intro H; discriminate H|]. rewrite (leftmostC_more _ _ d _ _ _ _ E). auto.
Qed.

Lemma runMem_list useAlt addTo cmpA : forall n e, e_src e = Mem -> e_fin e = false -> n = S (length (rest e)) ->
  exists e', runMem useAlt addTo cmpA n e = (rest e, e') /\ e_fin e' = true.
Proof.
  induction n as [|n IH]; intros e Hs Hf En; [discriminate|]. cbn [runMem]. rewrite Hf. unfold entryGetItem. rewrite Hs.
  pose proof (at_off_rest e) as Ha. destruct (rest e) as [|y r] eqn:Er; unfold row in *; rewrite Ha.
  - cbn [length] in En. injection En as ->. cbn [runMem]. exists (finish e). split; [|reflexivity]. reflexivity.
  - pose proof (rest_next e y r Er) as Er'. destruct (IH (set_cur e y (e_off e + 1)%Z) Hs Hf) as (e' & Hr & Hf').
    { rewrite Er'. cbn [length] in En. lia. }
    rewrite Er' in Hr. unfold set_cur in *. cbn [e_fin]. rewrite Hf in *. unfold row in *. rewrite Hr. exists e'. split; [reflexivity|exact Hf'].
Qed.

Lemma regular_all {A} useAlt addTo (cmpA : A -> A -> Z) att : total_cmp cmpA -> forall l m, ssorted (cmpAt useAlt addTo cmpA att) l ->
  match m with None => True | Some y => Forall (fun x => (cmpAt useAlt addTo cmpA att y x < 0)%Z) l end -> regular useAlt addTo cmpA att m l = l.
Proof.
  intro HA. assert (OK : total_cmp (cmpAt useAlt addTo cmpA att)) by (apply cri_total; exact HA).
  induction l as [|x l IH]; intros m Hs Hm; [reflexivity|]. cbn [regular]. apply ssorted_inv in Hs as [Hs Hx].
  assert (E : regular useAlt addTo cmpA att (Some x) l = l) by (apply IH; auto). destruct m as [y|]; [|rewrite E; reflexivity].
  apply Forall_inv in Hm. apply (cmp_lt_gt _ OK) in Hm. destruct (Z.leb_spec (cmpAt useAlt addTo cmpA att x y) 0); [lia|]. rewrite E. reflexivity.
Qed.

Section Ix.
  Context {K : Type}.
  Variable compareFn : N -> K -> K -> Z.
  Variables (useAlt : bool) (addTo : N).
  Variable attrOf : N -> attr.
  Variable cmpA : datum -> datum -> Z.
  Variable rawSize : ekey K -> N.
  Variable dflt : K.
  Notation altF := (ScanEntry.altOf useAlt addTo).
  Hypothesis Hcols : columns_ok compareFn altF attrOf cmpA.
  Notation kcmp := (rumCompareAttEntries compareFn).
  Notation etup := (etup K).
  Notation istate := (@istate K).
  Notation cmp := (ecmp compareFn).
  Let HK := proj1 Hcols.
  Let HA := proj1 (proj2 Hcols).
  Let Hatt := proj1 (proj2 (proj2 Hcols)).
  Let Hsafe := proj2 (proj2 (proj2 Hcols)).
  Let OK : total_cmp cmp := ecmp_total compareFn HK.
  Let KOK : total_cmp kcmp := att_total compareFn HK.
  Notation et_ok := (et_ok altF attrOf rawSize).
  Notation et_fit := (et_fit altF attrOf rawSize).
  Notation EInv := (Inv cmp (et_ifit rawSize) true et_ok et_fit true).
  Notation rcmp := (fun k : ekey K => compareRumItem (altF (k_att k)) cmpA).
  Notation TInv k := (Inv (rcmp k) pt_ifit false (pt_ok (altF (k_att k)) (attrOf (k_att k))) (fits_page (altF (k_att k)) (attrOf (k_att k))) true).
  Notation Grow k := (grows (rcmp k) pt_ifit false (pt_ok (altF (k_att k)) (attrOf (k_att k))) (fits_page (altF (k_att k)) (attrOf (k_att k))) (@incl row) true 0).
  Notation EGrow R := (grows cmp (et_ifit rawSize) true et_ok et_fit R true 0).
  Notation store_ok k := (storable (altF (k_att k)) (attrOf (k_att k))).
  Notation cont ix G := (contents (i_entry ix) G).
  Notation IInv := (IInv compareFn altF attrOf cmpA rawSize true).
  Notation eghost := (@ghost etup).
  Notation rghost := (@ghost row).

  (** The invariant, with the ghost of every posting tree. *)
  Record XInv (ix : istate) (G : eghost) (GT : nat -> rghost) : Prop := {
    Y_inv : IInv false ix G;
    Y_tree : forall t n, In t (cont ix G) -> t_data t = PTree n -> exists st, nth_error (i_trees ix) n = Some st /\ TInv (t_key t) st 0 (GT n) /\ contents st (GT n) <> [] }.

  (** A tuple keeps its key; its rows stay; a posting tree stays a posting tree, its pages stay where they are. *)
  Definition later_data (ix : istate) (GT : nat -> rghost) (t : etup) (ix' : istate) (GT' : nat -> rghost) (t' : etup) : Prop :=
    match t_data t with
    | PTree n => t' = t /\ evolve 0 (GT n) (GT' n)
    | PList _ => True
    end /\ forall R, tupleRows ix t = Some R -> exists R', tupleRows ix' t' = Some R' /\ incl R R'.
  Definition igrow (ix : istate) (G : eghost) (GT : nat -> rghost) (ix' : istate) (G' : eghost) (GT' : nat -> rghost) : Prop :=
    evolve 0 G G' /\
    forall t, In t (cont ix G) -> exists t', In t' (cont ix' G') /\ t_key t' = t_key t /\ later_data ix GT t ix' GT' t'.
  Lemma igrow_refl ix G GT : igrow ix G GT ix G GT.
  Proof.
    split; [apply evolve_refl|]. intros t Ht. exists t. split; [exact Ht|]. split; [reflexivity|]. unfold later_data. split.
    - destruct (t_data t); [exact I|]. split; [reflexivity|apply evolve_refl].
    - intros R HR. exists R. split; [exact HR|apply incl_refl].
  Qed.
  Lemma igrow_trans ix G GT ix1 G1 GT1 ix2 G2 GT2 : igrow ix G GT ix1 G1 GT1 -> igrow ix1 G1 GT1 ix2 G2 GT2 -> igrow ix G GT ix2 G2 GT2.
  Proof.
    intros [A B] [A' B']. split; [eapply evolve_trans; eauto|]. intros t Ht. destruct (B t Ht) as (t1 & H1 & E1 & D1 & R1).
    destruct (B' t1 H1) as (t2 & H2 & E2 & D2 & R2). exists t2. split; [exact H2|]. split; [congruence|]. unfold later_data. split.
    - destruct (t_data t) as [l|n] eqn:Ed; [exact I|]. destruct D1 as [-> V1]. rewrite Ed in D2. destruct D2 as [-> V2]. split; [reflexivity|eapply evolve_trans; eauto].
    - intros R HR. destruct (R1 R HR) as (R' & HR' & I1). destruct (R2 R' HR') as (R'' & HR'' & I2). exists R''. split; [exact HR''|]. intros x Hx. apply I2, I1, Hx.
  Qed.

  (** The logged changes one after another. *)
  Inductive ichain : istate -> eghost -> (nat -> rghost) -> list istate -> eghost -> (nat -> rghost) -> Prop :=
  | ich_nil ix G GT : ichain ix G GT [] G GT
  | ich_cons ix G GT s Gs GTs tr G' GT' : XInv s Gs GTs -> igrow ix G GT s Gs GTs -> ichain s Gs GTs tr G' GT' -> ichain ix G GT (s :: tr) G' GT'.
  Lemma ichain_app ix G GT tr G1 GT1 tr2 G2 GT2 : ichain ix G GT tr G1 GT1 -> ichain (last tr ix) G1 GT1 tr2 G2 GT2 -> ichain ix G GT (tr ++ tr2) G2 GT2.
  Proof.
    induction 1 as [|ix G GT s Gs GTs tr G1 GT1 HI Hg H IH]; intro H2; [exact H2|]. rewrite last_cons_eq in H2. cbn [app]. econstructor; eauto.
  Qed.
  Lemma ichain_firstn n : forall ix G GT tr G' GT', ichain ix G GT tr G' GT' -> exists Gn GTn, ichain ix G GT (firstn n tr) Gn GTn.
  Proof.
    induction n as [|n IH]; intros ix G GT tr G' GT' H; [exists G, GT; constructor|].
    inversion H as [|? ? ? s Gs GTs tr' ? ? HI Hg Hc]; subst; [exists G', GT'; constructor|].
    destruct (IH _ _ _ _ _ _ Hc) as (Gn & GTn & Hn). exists Gn, GTn. cbn [firstn]. econstructor; eauto.
  Qed.
  Lemma ichain_inv ix G GT tr G' GT' : ichain ix G GT tr G' GT' -> XInv ix G GT -> XInv (last tr ix) G' GT'.
  Proof. induction 1 as [|ix G GT s Gs GTs tr G' GT' HI Hg Hc IH]; intro H; [exact H|]. rewrite last_cons_eq. apply IH. exact HI. Qed.

  Definition setg (GT : nat -> rghost) (n : nat) (g : rghost) (m : nat) : rghost := if m =? n then g else GT m.
  Lemma setg_same GT n g : setg GT n g n = g.
  Proof. unfold setg. rewrite Nat.eqb_refl. reflexivity. Qed.
  Lemma setg_other GT n g m : m <> n -> setg GT n g m = GT m.
  Proof. intro H. unfold setg. replace (m =? n) with false by (symmetry; apply Nat.eqb_neq; exact H). reflexivity. Qed.

  Lemma tree_rows (k : ekey K) st G : TInv k st 0 G -> ptScan st = Some (contents st G).
  Proof. intro HI. apply (scan_contents (altF (k_att k)) (attrOf (k_att k)) cmpA HA true). exact HI. Qed.

  (** ** a change of a posting tree *)
  Lemma tree_step ix G GT t n st s Gs : XInv ix G GT -> In t (cont ix G) -> t_data t = PTree n -> nth_error (i_trees ix) n = Some st ->
    TInv (t_key t) s 0 Gs -> evolve 0 (GT n) Gs -> incl (contents st (GT n)) (contents s Gs) ->
    XInv (set_tree ix n s) G (setg GT n Gs) /\ igrow ix G GT (set_tree ix n s) G (setg GT n Gs).
  Proof.
    intros HX Hin Ed Hn HIs He Hincl. pose proof (Y_inv _ _ _ HX) as HI.
    assert (Hlen : n < length (i_trees ix)) by (eapply nth_some_lt; eauto).
    assert (Hother : forall t', In t' (cont ix G) -> t' = t \/ t_data t' <> PTree n).
    { intros t' Ht'. destruct (t_data t') as [l|m] eqn:E; [right; discriminate|]. destruct (Nat.eq_dec m n) as [->|]; [left|right; congruence].
      exact (X_own _ _ _ _ _ _ _ _ _ HI t' t n Ht' Hin E Ed). }
    split; [constructor; [constructor|]|].
    - exact (X_inv _ _ _ _ _ _ _ _ _ HI).
    - discriminate.
    - intros t' Ht'. cbn [set_tree i_entry] in Ht'. pose proof (X_data _ _ _ _ _ _ _ _ _ HI t' Ht') as D. unfold data_ok in *. cbn [set_tree i_trees].
      destruct (Hother t' Ht') as [->|Hne].
      + rewrite Ed. exists s, Gs. rewrite nth_upd_same by exact Hlen. split; [reflexivity|]. split; [exact HIs|discriminate].
      + destruct (t_data t') as [R|m]; [exact D|]. rewrite nth_upd_other by congruence. exact D.
    - exact (X_own _ _ _ _ _ _ _ _ _ HI).
    - intros t' m Ht' E. cbn [set_tree i_entry i_trees] in *. destruct (Hother t' Ht') as [->|Hne].
      + rewrite Ed in E. injection E as <-. exists s. rewrite nth_upd_same by exact Hlen. rewrite setg_same. split; [reflexivity|]. split; [exact HIs|].
        destruct (Y_tree _ _ _ HX t n Hin Ed) as (st' & Hn' & _ & Hne'). rewrite Hn in Hn'. injection Hn' as <-. intro E. apply Hne'. apply incl_l_nil. intros z Hz. pose proof (Hincl z Hz) as H'. unfold row in *. rewrite E in H'. exact H'.
      + destruct (Nat.eq_dec m n) as [->|Hm]; [congruence|]. rewrite nth_upd_other by congruence. rewrite setg_other by exact Hm. exact (Y_tree _ _ _ HX t' m Ht' E).
    - split; [apply evolve_refl|]. intros t' Ht'. exists t'. split; [exact Ht'|]. split; [reflexivity|]. unfold later_data. split.
      + destruct (t_data t') as [R|m]; [exact I|]. split; [reflexivity|]. destruct (Nat.eq_dec m n) as [->|Hm]; [rewrite setg_same; exact He|rewrite setg_other by exact Hm; apply evolve_refl].
      + intros R HR. destruct (Hother t' Ht') as [->|Hne].
        * unfold tupleRows in *. rewrite Ed in *. rewrite Hn in HR. destruct (Y_tree _ _ _ HX t n Hin Ed) as (st' & Hn' & HIt & _). rewrite Hn in Hn'. injection Hn' as <-.
          rewrite (tree_rows _ _ _ HIt) in HR. injection HR as <-. exists (contents s Gs). cbn [set_tree i_trees]. rewrite nth_upd_same by exact Hlen.
          split; [exact (tree_rows _ _ _ HIs)|exact Hincl].
        * exists R. split; [|apply incl_refl]. unfold tupleRows in *. cbn [set_tree i_trees]. destruct (t_data t') as [l|m]; [exact HR|].
          rewrite nth_upd_other by congruence. exact HR.
  Qed.
  Lemma set_tree_twice (ix : istate) n s s' : set_tree (set_tree ix n s) n s' = set_tree ix n s'.
  Proof.
    unfold set_tree. cbn [i_entry i_trees]. f_equal. generalize (i_trees ix). clear. intro l. revert n.
    induction l as [|x l IH]; intros [|n]; cbn; auto. f_equal. apply IH.
  Qed.
  Lemma tree_chain t n st g tr Gt' : Grow (t_key t) st g tr Gt' -> forall ix G GT, XInv ix G GT -> In t (cont ix G) -> t_data t = PTree n ->
    nth_error (i_trees ix) n = Some st -> GT n = g -> exists GT', ichain ix G GT (map (set_tree ix n) tr) G GT'.
  Proof.
    induction 1 as [st g|st g s Gs tr Gt' HI He Hr Hg IH]; intros ix G GT HX Hin Ed Hn E; [exists GT; constructor|]. subst g.
    destruct (tree_step ix G GT t n st s Gs HX Hin Ed Hn HI He Hr) as [HX' Hg'].
    destruct (IH (set_tree ix n s) G (setg GT n Gs) HX') as [GT' Hc].
    - exact Hin.
    - exact Ed.
    - cbn [set_tree i_trees]. apply nth_upd_same. eapply nth_some_lt; eauto.
    - apply setg_same.
    - exists GT'. cbn [map]. econstructor; [exact HX'|exact Hg'|].
      erewrite map_ext; [exact Hc|]. intro a. symmetry. apply set_tree_twice.
  Qed.

  (** ** a new posting tree nobody refers to yet *)
  Lemma ref_old ix G GT t n : XInv ix G GT -> In t (cont ix G) -> t_data t = PTree n -> n < length (i_trees ix).
  Proof. intros HX Ht Ed. destruct (Y_tree _ _ _ HX t n Ht Ed) as (st & Hn & _). eapply nth_some_lt; eauto. Qed.
  Lemma grown_x ix G GT t0 g : XInv ix G GT -> XInv (grown ix t0) G (setg GT (length (i_trees ix)) g).
  Proof.
    intro HX. destruct (grown_inv compareFn altF attrOf cmpA rawSize true false ix G t0 (Y_inv _ _ _ HX)) as [HI _].
    constructor; [exact HI|]. intros t n Ht Ed. pose proof (ref_old _ _ _ _ _ HX Ht Ed) as L. destruct (Y_tree _ _ _ HX t n Ht Ed) as (st & Hn & Hi).
    exists st. unfold grown. cbn [i_trees]. rewrite nth_error_app1 by exact L. rewrite setg_other by lia. auto.
  Qed.
  Lemma grown_keep ix G GT t0 (t : etup) : XInv ix G GT -> In t (cont ix G) -> tupleRows (grown ix t0) t = tupleRows ix t.
  Proof.
    intros HX Ht. apply (grown_data altF attrOf cmpA true false ix t0 t (X_data _ _ _ _ _ _ _ _ _ (Y_inv _ _ _ HX) t Ht)).
  Qed.
  Lemma grown_grow ix G GT t0 g : XInv ix G GT -> igrow ix G GT (grown ix t0) G (setg GT (length (i_trees ix)) g).
  Proof.
    intro HX. split; [apply evolve_refl|]. intros t Ht. exists t. split; [exact Ht|]. split; [reflexivity|]. unfold later_data. split.
    - destruct (t_data t) as [l|n] eqn:Ed; [exact I|]. pose proof (ref_old _ _ _ _ _ HX Ht Ed). rewrite setg_other by lia. split; [reflexivity|apply evolve_refl].
    - intros R HR. exists R. split; [rewrite (grown_keep _ _ _ _ _ HX Ht); exact HR|apply incl_refl].
  Qed.
  Lemma grown_grow2 ix G GT t0 t1 g : XInv ix G GT -> igrow (grown ix t0) G (setg GT (length (i_trees ix)) g) (grown ix t1) G (setg GT (length (i_trees ix)) g).
  Proof.
    intro HX. split; [apply evolve_refl|]. intros t Ht. change (In t (cont ix G)) in Ht. exists t. split; [exact Ht|]. split; [reflexivity|]. unfold later_data. split.
    - destruct (t_data t) as [l|n] eqn:Ed; [exact I|]. split; [reflexivity|apply evolve_refl].
    - intros R HR. exists R. split; [|apply incl_refl]. rewrite (grown_keep _ _ _ _ _ HX Ht) in HR. rewrite (grown_keep _ _ _ _ _ HX Ht). exact HR.
  Qed.
  Lemma grown_chain ix G GT g tr : XInv ix G GT -> Forall (fun s => exists t, s = grown ix t) tr -> tr <> [] ->
    ichain ix G GT tr G (setg GT (length (i_trees ix)) g).
  Proof.
    intros HX Hf Hne. destruct tr as [|s0 tr]; [congruence|]. inversion Hf as [|? ? (t0 & ->) Hr]; subst. clear Hf Hne.
    econstructor; [apply grown_x; exact HX|apply grown_grow; exact HX|].
    revert t0. induction Hr as [|s tr (t1 & ->) Hr IH]; intro t0; [constructor|].
    econstructor; [apply grown_x; exact HX|apply grown_grow2; exact HX|]. apply IH.
  Qed.

  (** ** a tuple put into the entry tree *)
  Lemma entry_chain x Rx st G tr G' : EGrow (chg_rows (samekey compareFn x) [x]) st G tr G' -> forall ix GT, i_entry ix = st -> XInv ix G GT ->
    data_ok altF attrOf cmpA true false ix x ->
    (forall n, t_data x = PTree n -> exists st, nth_error (i_trees ix) n = Some st /\ TInv (t_key x) st 0 (GT n) /\ contents st (GT n) <> []) ->
    tupleRows ix x = Some Rx ->
    (forall t n, In t (cont ix G) -> t_data t = PTree n -> t_data x = PTree n -> cmp t x = 0%Z) ->
    (forall t, In t (cont ix G) -> cmp t x = 0%Z -> t = x \/ (t_key t = t_key x /\ exists R, t_data t = PList R /\ incl R Rx)) ->
    ichain ix G GT (map (set_entry ix) tr) G' GT.
  Proof.
    induction 1 as [st G|st G s Gs tr G' HI He Hr Hg IH]; intros ix GT <- HX Hd Ht HR Hown Hold; [constructor|].
    assert (Hin : forall t, In t (contents s Gs) -> In t (cont ix G) \/ t = x).
    { intros t H. destruct Hr as [Hr|Hr]; apply Hr in H; [auto|]. destruct H as [[H _]|[<-|[]]]; auto. }
    assert (Hkeep : forall t, In t (cont ix G) -> In t (contents s Gs) \/ (cmp t x = 0%Z /\ In x (contents s Gs))).
    { intros t H. destruct Hr as [Hr|Hr]; [left; apply Hr; exact H|]. destruct (Z.eq_dec (cmp t x) 0) as [E|E]; [right; split; [exact E|]|left]; apply Hr; [right; left; reflexivity|].
      left. split; [exact H|]. unfold samekey. apply Z.eqb_neq. exact E. }
    assert (HX' : XInv (set_entry ix s) Gs GT).
    { constructor; [constructor|].
      - exact HI.
      - discriminate.
      - intros t H. apply Hin in H as [H| ->]; [|exact Hd]. exact (X_data _ _ _ _ _ _ _ _ _ (Y_inv _ _ _ HX) t H).
      - assert (Hx : forall t n, In t (cont ix G) -> t_data t = PTree n -> t_data x = PTree n -> t = x).
        { intros t n H E1 E2. destruct (Hold t H (Hown t n H E1 E2)) as [E|(_ & R & E & _)]; [exact E|congruence]. }
        intros t1 t2 n H1 H2 E1 E2. apply Hin in H1 as [H1| ->]; apply Hin in H2 as [H2| ->]; [|eapply Hx; eauto|symmetry; eapply Hx; eauto|reflexivity].
        exact (X_own _ _ _ _ _ _ _ _ _ (Y_inv _ _ _ HX) t1 t2 n H1 H2 E1 E2).
      - intros t n H E. apply Hin in H as [H| ->]; [exact (Y_tree _ _ _ HX t n H E)|]. exact (Ht n E). }
    cbn [map]. apply (ich_cons ix G GT (set_entry ix s) Gs GT); [exact HX'| |].
    - split; [exact He|]. intros t H.
      assert (Hself : In t (contents s Gs) -> exists t', In t' (cont (set_entry ix s) Gs) /\ t_key t' = t_key t /\ later_data ix GT t (set_entry ix s) GT t').
      { intro H'. exists t. split; [exact H'|]. split; [reflexivity|]. split; [destruct (t_data t); [exact I|split; [reflexivity|apply evolve_refl]]|].
        intros R HR'. exists R. split; [exact HR'|apply incl_refl]. }
      destruct (Hkeep t H) as [H'|[E H']]; [exact (Hself H')|]. destruct (Hold t H E) as [->|(Ek & R & Ed & Hi)]; [exact (Hself H')|].
      exists x. split; [exact H'|]. split; [auto|]. split; [rewrite Ed; exact I|]. intros R0 HR0. unfold tupleRows in HR0. rewrite Ed in HR0. injection HR0 as <-.
      exists Rx. split; [exact HR|exact Hi].
    - apply (IH (set_entry ix s) GT eq_refl HX' Hd Ht HR).
      + intros t n H E1 E2. apply Hin in H as [H| ->]; [eapply Hown; eauto|]. apply (tc_refl _ OK).
      + intros t H E. apply Hin in H as [H| ->]; [apply Hold; auto|left; reflexivity].
  Qed.

  Lemma eInsert_grows st G b pg stack x : EInv st 0 G -> at_ G 0 b -> get st b = Some pg ->
    in_range cmp (slo G b) (shi G b) x -> stack_ok G 0 stack -> et_ok x ->
    exists tr lost G', eInsertValue compareFn altF attrOf rawSize dflt st b stack x = Some (tr, [], lost) /\
      EGrow (chg_rows (samekey compareFn x) [x]) st G tr G'.
  Proof.
    intros HI Hat Hg Hx Hst Hox. unfold eInsertValue.
    destruct (insertValue_chg_grows cmp OK (et_ifit rawSize) true et_ok et_fit (et_kok rawSize) (@et_null K dflt) (et_ienough rawSize)
      (et_find compareFn) (et_enough compareFn altF attrOf rawSize) (et_place compareFn altF attrOf rawSize) (et_split compareFn altF attrOf rawSize)
      (et_isep rawSize) (@et_rkey K)
      (et_kok_ok altF attrOf rawSize Hatt) (et_ienough_ok altF attrOf rawSize Hatt) (et_isep_ok altF attrOf rawSize Hatt) (et_iroot_ok rawSize)
      true st 0 G b pg stack x (samekey compareFn x) HI Hat Hg) as (tr & lost & A & B & C & G' & D1 & D2 & D3 & D4).
    - eapply (wst_of_stack_ok cmp (et_ifit rawSize) true et_ok et_fit true st 0 G HI); eauto.
    - apply (stay_others compareFn altF attrOf rawSize HK st 0 G HI b x Hat Hx).
    - exact (place_case compareFn altF attrOf rawSize HK Hatt st 0 G HI b pg x Hat Hg Hx Hox).
    - exact (split_case compareFn altF attrOf rawSize HK Hatt st 0 G HI b pg x Hat Hg Hx Hox).
    - exists tr, lost, G'. auto.
  Qed.

  Lemma put_chain ix G GT tr GT1 b pg stack x Rx tr' out : XInv ix G GT -> ichain ix G GT tr G GT1 -> i_entry (last tr ix) = i_entry ix ->
    at_ G 0 b -> get (i_entry ix) b = Some pg -> in_range cmp (slo G b) (shi G b) x -> stack_ok G 0 stack -> et_ok x ->
    data_ok altF attrOf cmpA true false (last tr ix) x ->
    (forall n, t_data x = PTree n -> exists st, nth_error (i_trees (last tr ix)) n = Some st /\ TInv (t_key x) st 0 (GT1 n) /\ contents st (GT1 n) <> []) ->
    tupleRows (last tr ix) x = Some Rx ->
    (forall t n, In t (cont ix G) -> t_data t = PTree n -> t_data x = PTree n -> cmp t x = 0%Z) ->
    (forall t, In t (cont ix G) -> cmp t x = 0%Z -> t = x \/ (t_key t = t_key x /\ exists R, t_data t = PList R /\ incl R Rx)) ->
    insertTuple compareFn altF attrOf rawSize dflt ix b stack (tr, inl x) = Some (tr', out) ->
    exists G' GT', ichain ix G GT tr' G' GT'.
  Proof.
    intros HX Hc Hent Hat Hg Hx Hst Hox Hd Ht HR Hown Hold Hi. pose proof (ichain_inv _ _ _ _ _ _ Hc HX) as HX1.
    unfold insertTuple in Hi. rewrite Hent in Hi.
    destruct (eInsert_grows (i_entry ix) G b pg stack x (X_inv _ _ _ _ _ _ _ _ _ (Y_inv _ _ _ HX)) Hat Hg Hx Hst Hox) as (es & lost & G' & He & Hgr).
    rewrite He in Hi. injection Hi as <- <-. exists G', GT1. eapply ichain_app; [exact Hc|].
    apply (entry_chain x Rx (i_entry ix) G es G' Hgr (last tr ix) GT1); auto.
    - rewrite Hent. exact Hown.
    - rewrite Hent. exact Hold.
  Qed.

  Lemma call_chain ix G GT build k items tr out : XInv ix G GT -> call_ok altF attrOf cmpA rawSize (build, k, items) ->
    rumEntryInsert compareFn altF attrOf cmpA rawSize dflt build ix k items = Some (tr, out) -> exists G' GT', ichain ix G GT tr G' GT'.
  Proof.
    intros HX [Hkf Hv] Hcall. unfold call_key, call_rows in Hkf, Hv. cbn [fst snd] in Hkf, Hv. unfold rumEntryInsert in Hcall.
    pose proof (Y_inv _ _ _ HX) as HI. set (x := mkTup k (PList items)) in *.
    destruct (eFindLeaf_spec compareFn altF attrOf rawSize HK (i_entry ix) G x (X_inv _ _ _ _ _ _ _ _ _ HI)) as (b & stack & pg & Hfl & Hat & Hg & Hx & Hst).
    rewrite Hfl, Hg in Hcall. pose proof (findpage compareFn altF attrOf cmpA rawSize Hcols true false ix G k HI b pg x eq_refl Hat Hg Hx) as Hfp.
    assert (Hfresh : forall (t : etup) n, In t (cont ix G) -> t_data t = PTree n -> PTree (length (i_trees ix)) = PTree n -> False).
    { intros t n Hin Ed E. injection E as <-. pose proof (ref_old _ _ _ _ _ HX Hin Ed). lia. }
    destruct (et_find compareFn (p_items pg) x) as [found off]. destruct found.
    - destruct Hfp as (t & Hn & Hin & Ek). rewrite Hn in Hcall. pose proof (katt_eq compareFn _ _ Ek) as Eatt.
      assert (Hdt := X_data _ _ _ _ _ _ _ _ _ HI t Hin). assert (Hot : et_ok t).
      { pose proof (contents_ok cmp (et_ifit rawSize) true et_ok et_fit true (i_entry ix) 0 G (X_inv _ _ _ _ _ _ _ _ _ HI)) as H.
        rewrite Forall_forall in H. auto. }
      assert (Honly : forall t', In t' (cont ix G) -> kcmp (t_key t') (t_key t) = 0%Z -> t' = t).
      { intros t' Ht' E. apply (ssorted_unique cmp OK (cont ix G)); auto. eapply (contents_sorted cmp OK); eauto. exact (X_inv _ _ _ _ _ _ _ _ _ HI). }
      destruct (t_data t) as [old|n] eqn:Ed.
      + unfold data_ok in Hdt. rewrite Ed in Hdt. destruct Hdt as [Hso Hsto].
        assert (Hv' : valid_batch (altF (k_att (t_key t))) (attrOf (k_att (t_key t))) cmpA items) by (rewrite Eatt; exact Hv).
        destruct Hv as (Hsi & Hsti & _). rewrite <- Eatt in Hsi, Hsti.
        destruct (merge_spec (rcmp (t_key t)) (cri_total _ _ HA) items old Hsi Hso) as [Hms Hmin].
        assert (Hmst : Forall (store_ok (t_key t)) (rumMergeRumItems (rcmp (t_key t)) items old)).
        { apply Forall_forall. intros y Hy. rewrite Forall_forall in Hsti, Hsto. apply Hmin in Hy as [Hy|[Hy _]]; auto. }
        assert (Hmi : incl old (rumMergeRumItems (rcmp (t_key t)) items old)) by (intros y Hy; apply Hmin; left; exact Hy).
        unfold addItemPointersToLeafTuple in Hcall. unfold altK at 1 in Hcall. unfold RumFormTuple at 1 in Hcall.
        set (m := rumMergeRumItems (rcmp (t_key t)) items old) in *. cbv zeta in Hcall.
        assert (Hrange : forall p, in_range cmp (slo G b) (shi G b) (mkTup (t_key t) p)).
        { intro p. apply (in_range_eq cmp OK (slo G b) (shi G b) x); [|exact Hx]. unfold ecmp. cbn [t_key x]. apply (cmp_sym_eq _ KOK). exact Ek. }
        destruct (N.ltb_spec RumMaxItemSize (tupsize altF attrOf rawSize (mkTup (t_key t) (PList m)))) as [L|L].
        * destruct (newPosting_spec compareFn altF attrOf cmpA rawSize Hcols true build ix (t_key t) old items Hso Hsto (list_fits compareFn altF attrOf cmpA rawSize Hcols t old Ed Hot Hsto) Hv' (or_introl eq_refl))
            as (tr1 & tt & Gt & Hnp & Htr & Hlast & HIt & HCt & HRt).
          rewrite Hnp in Hcall. unfold RumFormTuple in Hcall.
          assert (Hfull : contents tt Gt <> []).
          { intro E. destruct HRt as (R1 & _ & R3). rewrite E in R1, R3.
            assert (old = []) by (destruct old as [|y l]; [reflexivity|destruct (R1 y (or_introl eq_refl))]).
            assert (items = []) by (destruct items as [|y l]; [reflexivity|destruct (R3 y (or_introl eq_refl)) as (z & [] & _)]).
            assert (Em : m = []) by (destruct m as [|y l]; [reflexivity|]; destruct (proj1 (Hmin y) (or_introl eq_refl)) as [H'|[H' _]]; subst; destruct H').
            assert (Et : mkTup (t_key t) (PList m) = t) by (rewrite Em; destruct t as [tk td]; cbn [t_key t_data] in *; unfold row in *; congruence).
            rewrite Et in L. unfold EntryTreeProof.et_ok in Hot. apply N.lt_nge in L. apply L. exact Hot. }
          destruct (N.ltb_spec RumMaxItemSize (tupsize altF attrOf rawSize (mkTup (t_key t) (PTree (length (i_trees ix)))))) as [L'|L'].
          { cbn in Hcall. injection Hcall as <- <-. exists G, (setg GT (length (i_trees ix)) Gt). apply grown_chain; auto. intros ->. cbn in Hlast.
            apply (f_equal (fun i => length (i_trees i))) in Hlast. unfold grown in Hlast. cbn [i_trees] in Hlast. rewrite app_length in Hlast. cbn in Hlast. lia. }
          eapply (put_chain ix G GT tr1 (setg GT (length (i_trees ix)) Gt) b pg stack _ (contents tt Gt)); try exact Hcall; auto.
          -- apply grown_chain; auto. intros ->. cbn in Hlast.
             apply (f_equal (fun i => length (i_trees i))) in Hlast. unfold grown in Hlast. cbn [i_trees] in Hlast. rewrite app_length in Hlast. cbn in Hlast. lia.
          -- rewrite Hlast. reflexivity.
          -- rewrite Hlast. unfold data_ok. cbn [t_data t_key grown i_trees]. exists tt, Gt. rewrite nth_error_app2, Nat.sub_diag by lia. split; [reflexivity|]. split; [exact HIt|auto].
          -- intros n E. injection E as <-. rewrite Hlast. exists tt. unfold grown. cbn [i_trees t_key]. rewrite nth_error_app2, Nat.sub_diag by lia. rewrite setg_same. auto.
          -- rewrite Hlast. unfold tupleRows. cbn [t_data grown i_trees]. rewrite nth_error_app2, Nat.sub_diag by lia. cbn [nth_error]. exact (tree_rows _ _ _ HIt).
          -- intros t' n Hin' Ed' E. destruct (Hfresh t' n Hin' Ed' E).
          -- intros t' Hin' E. right. rewrite (Honly t' Hin' E). split; [reflexivity|]. exists old. split; [exact Ed|]. exact (proj1 HRt).
        * eapply (put_chain ix G GT [] GT b pg stack _ m); try exact Hcall; auto.
          -- constructor.
          -- unfold data_ok. cbn [t_data t_key last]. auto.
          -- intros n E. discriminate E.
          -- intros t' n _ _ E. discriminate E.
          -- intros t' Hin' E. right. rewrite (Honly t' Hin' E). split; [reflexivity|]. exists old. auto.
      + destruct (Y_tree _ _ _ HX t n Hin Ed) as (st & Hnt & HIt & _). unfold insertPosting in Hcall. rewrite Hnt in Hcall.
        destruct (insert_grows (altF (k_att (t_key t))) (attrOf (k_att (t_key t))) cmpA (Hatt _) HA (Hsafe _) build items st (GT n) HIt) as (tr0 & lost & Gt' & Hi & Hgr).
        { rewrite Eatt. exact Hv. }
        unfold altK, attrK in Hcall. rewrite Eatt in Hi. rewrite Hi in Hcall. injection Hcall as <- <-.
        destruct (tree_chain t n st (GT n) tr0 Gt' Hgr ix G GT HX Hin Ed Hnt eq_refl) as [GT' Hc]. eauto.
    - destruct Hv as (Hsi & Hsti & Hlen) eqn:Ev. clear Ev.
      assert (Hno : forall t', In t' (cont ix G) -> kcmp (t_key t') k = 0%Z -> False) by (intros t' H E; exact (Hfp t' H E)).
      unfold buildFreshLeafTuple, RumFormTuple in Hcall. fold x in Hcall.
      destruct (N.ltb_spec RumMaxItemSize (tupsize altF attrOf rawSize x)) as [L|L].
      + assert (Hsz : et_ok (mkTup k (PTree (length (i_trees ix))))) by exact Hkf.
        destruct (N.ltb_spec RumMaxItemSize (tupsize altF attrOf rawSize (mkTup k (PTree (length (i_trees ix)))))) as [L'|_]; [unfold EntryTreeProof.et_ok in Hsz; lia|].
        unfold altK, attrK in Hcall. set (n := freshCount (altF (k_att k)) (attrOf (k_att k)) items) in *.
        assert (Hf1 : ssorted (rcmp k) (firstn n items) /\ Forall (store_ok k) (firstn n items)).
        { rewrite <- (firstn_skipn n items) in Hsi, Hsti. apply ssorted_app in Hsi as (A & _ & _). apply Forall_app in Hsti as [B _]. auto. }
        destruct (newPosting_spec compareFn altF attrOf cmpA rawSize Hcols true build ix k (firstn n items) (skipn n items) (proj1 Hf1) (proj2 Hf1) (fresh_fits0 compareFn altF attrOf cmpA rawSize Hcols k items Hsti) (valid_skipn compareFn altF attrOf cmpA rawSize Hcols k n items Hv) (or_introl eq_refl))
          as (tr1 & tt & Gt & Hnp & Htr & Hlast & HIt & HCt & HRt).
        rewrite Hnp in Hcall.
        assert (Hfull : contents tt Gt <> []).
        { intro E. destruct HRt as (R1 & _ & R3). rewrite E in R1, R3.
          assert (E1 : firstn n items = []) by (destruct (firstn n items) as [|y l]; [reflexivity|destruct (R1 y (or_introl eq_refl))]).
          assert (E2 : skipn n items = []) by (destruct (skipn n items) as [|y l]; [reflexivity|destruct (R3 y (or_introl eq_refl)) as (z & [] & _)]).
          assert (E3 : items = []) by (rewrite <- (firstn_skipn n items), E1, E2; reflexivity).
          unfold x in L. rewrite E3 in L. unfold key_fits in Hkf. unfold tupsize in L. cbn [t_data t_key postingListSize] in L. unfold ksize in L. lia. }
        eapply (put_chain ix G GT tr1 (setg GT (length (i_trees ix)) Gt) b pg stack _ (contents tt Gt)); try exact Hcall; auto.
        * apply grown_chain; auto. intros ->. cbn in Hlast.
          apply (f_equal (fun i => length (i_trees i))) in Hlast. unfold grown in Hlast. cbn [i_trees] in Hlast. rewrite app_length in Hlast. cbn in Hlast. lia.
        * rewrite Hlast. reflexivity.
        * rewrite Hlast. unfold data_ok. cbn [t_data t_key grown i_trees]. exists tt, Gt. rewrite nth_error_app2, Nat.sub_diag by lia. split; [reflexivity|]. split; [exact HIt|auto].
        * intros n' E. injection E as <-. rewrite Hlast. exists tt. unfold grown. cbn [i_trees t_key]. rewrite nth_error_app2, Nat.sub_diag by lia. rewrite setg_same. auto.
        * rewrite Hlast. unfold tupleRows. cbn [t_data grown i_trees]. rewrite nth_error_app2, Nat.sub_diag by lia. cbn [nth_error]. exact (tree_rows _ _ _ HIt).
        * intros t' n' Hin' Ed' E. destruct (Hfresh t' n' Hin' Ed' E).
        * intros t' Hin' E. destruct (Hno t' Hin' E).
      + eapply (put_chain ix G GT [] GT b pg stack _ items); try exact Hcall; auto.
        * constructor.
        * unfold data_ok. cbn [t_data t_key x last]. auto.
        * intros n E. discriminate E.
        * intros t' n _ _ E. discriminate E.
        * intros t' Hin' E. destruct (Hno t' Hin' E).
  Qed.
  Lemma iinserting_chain ix calls later : iinserting compareFn altF attrOf cmpA rawSize dflt ix calls later -> forall G GT, XInv ix G GT -> exists G' GT', ichain ix G GT later G' GT'.
  Proof.
    induction 1 as [ix|ix build k rows calls tr out n later Hc Hi Hl IH]; intros G GT HX; [exists G, GT; constructor|].
    destruct (call_chain ix G GT build k rows tr out HX Hc Hi) as (G1 & GT1 & Hch).
    destruct (ichain_firstn n _ _ _ _ _ _ Hch) as (Gn & GTn & Hn). destruct (IH Gn GTn (ichain_inv _ _ _ _ _ _ Hn HX)) as (G2 & GT2 & H2).
    exists G2, GT2. eapply ichain_app; eauto.
  Qed.

  (** ** reachable states *)
  Lemma ichain_mem ix G GT tr G' GT' s : ichain ix G GT tr G' GT' -> In s tr -> exists Gs GTs, XInv s Gs GTs.
  Proof. induction 1 as [|ix G GT s0 Gs GTs tr G' GT' HI Hg Hc IH]; intro H; [destruct H|]. destruct H as [<-|H]; [eauto|auto]. Qed.
  Lemma reach_x ix acked tried : ireaches compareFn altF attrOf cmpA rawSize dflt ix acked tried -> exists G GT, XInv ix G GT.
  Proof.
    induction 1 as [|ix acked tried b k rows tr Hr (G & GT & HX) Hc Hi|ix acked tried b k rows tr out s Hr (G & GT & HX) Hc Hi Hs].
    - destruct (empty_inv compareFn altF attrOf cmpA rawSize dflt true) as (G & HI & Ec). exists G, (fun _ => mkG [] (fun _ => BMin) (fun _ => BMin)).
      constructor; [eapply IInv_weak; eauto|]. rewrite Ec. intros t n [].
    - destruct (call_chain ix G GT b k rows tr Done HX Hc Hi) as (G' & GT' & Hch). exists G', GT'. exact (ichain_inv _ _ _ _ _ _ Hch HX).
    - destruct Hs as [<-|Hs]; [eauto|]. destruct (call_chain ix G GT b k rows tr out HX Hc Hi) as (G' & GT' & Hch). eapply ichain_mem; eauto.
  Qed.
  Lemma ichain_ghosts ix G GT tr G' GT' : XInv ix G GT -> ichain ix G GT tr G' GT' ->
    exists Gl : list (eghost * (nat -> rghost)), length Gl = S (length tr) /\ nth_error Gl 0 = Some (G, GT) /\
      (forall i s g, nth_error (ix :: tr) i = Some s -> nth_error Gl i = Some g -> XInv s (fst g) (snd g)) /\
      (forall i j s s' g g', i <= j -> nth_error (ix :: tr) i = Some s -> nth_error (ix :: tr) j = Some s' ->
         nth_error Gl i = Some g -> nth_error Gl j = Some g' -> igrow s (fst g) (snd g) s' (fst g') (snd g')).
  Proof.
    intros HX0 H. revert HX0. induction H as [ix G GT|ix G GT s Gs GTs tr G' GT' HX Hg Hc IH]; intro HX0.
    - exists [(G, GT)]. split; [reflexivity|]. split; [reflexivity|]. split.
      + intros [|i] s g E1 E2; cbn in E1, E2; [|destruct i; discriminate]. injection E1 as <-. injection E2 as <-. exact HX0.
      + intros [|i] [|j] s s' g g' L E1 E2 E3 E4; cbn in E1, E2, E3, E4; try (destruct i; discriminate); try (destruct j; discriminate).
        injection E1 as <-. injection E2 as <-. injection E3 as <-. injection E4 as <-. apply igrow_refl.
    - destruct (IH HX) as (Gl & HL & H0 & HIs & HR). exists ((G, GT) :: Gl). split; [cbn; lia|]. split; [reflexivity|]. split.
      + intros [|i] s' g E1 E2; [injection E1 as <-; injection E2 as <-; exact HX0|]. exact (HIs i s' g E1 E2).
      + intros [|i] [|j] s1 s2 g g' L E1 E2 E3 E4; [| |lia|].
        * cbn in E1, E2, E3, E4. injection E1 as <-. injection E2 as <-. injection E3 as <-. injection E4 as <-. apply igrow_refl.
        * cbn in E1, E3. injection E1 as <-. injection E3 as <-. cbn [fst snd]. eapply igrow_trans; [exact Hg|].
          exact (HR 0 j s s2 (Gs, GTs) g' ltac:(lia) eq_refl E2 H0 E4).
        * exact (HR i j s1 s2 g g' ltac:(lia) E1 E2 E3 E4).
  Qed.

  (** ** the page reads of a query *)
  Section Watch.
    Variables (ix : istate) (later : list istate) (sched : nat -> istate).
    Variables (Ge : nat -> eghost) (Gp : nat -> nat -> rghost) (tau : nat -> nat) (GL : eghost) (GTL : nat -> rghost).
    Hypothesis WX : forall t, XInv (sched t) (Ge t) (Gp t).
    Hypothesis WG : forall t t', t <= t' -> igrow (sched t) (Ge t) (Gp t) (sched t') (Ge t') (Gp t').
    Hypothesis WXL : XInv (last later ix) GL GTL.
    Hypothesis WL : forall t, igrow (sched t) (Ge t) (Gp t) (last later ix) GL GTL.
    Hypothesis Wm : forall t t', t <= t' -> tau t <= tau t'.
    Hypothesis Wb : forall t, tau t <= length later.
    Hypothesis Ws : forall t t', tau t = tau t' -> sched t = sched t' /\ Ge t = Ge t' /\ Gp t = Gp t'.
    Hypothesis Win : forall t, In (sched t) (ix :: later).

    Lemma entry_moments : moments cmp (et_ifit rawSize) true et_ok et_fit true 0 (fun _ _ => True) (fun t => i_entry (sched t)) Ge tau (length later).
    Proof.
      constructor; auto.
      - intro t. exact (X_inv _ _ _ _ _ _ _ _ _ (Y_inv _ _ _ (WX t))).
      - intros t t' L. exact (proj1 (WG t t' L)).
      - intros t t' E. destruct (Ws t t' E) as (-> & -> & _). auto.
    Qed.
    (** Tuple [t] points to posting tree [n] from moment [u] on. *)
    Lemma tree_stays u t n : In t (cont (sched u) (Ge u)) -> t_data t = PTree n -> forall v, u <= v ->
      In t (cont (sched v) (Ge v)) /\ exists st, nth_error (i_trees (sched v)) n = Some st /\ TInv (t_key t) st 0 (Gp v n) /\ contents st (Gp v n) <> [].
    Proof.
      intros Ht Ed v L. destruct (WG u v L) as [_ H]. destruct (H t Ht) as (t' & Ht' & _ & D & _). rewrite Ed in D. destruct D as [-> _].
      split; [exact Ht'|]. exact (Y_tree _ _ _ (WX v) t n Ht' Ed).
    Qed.
    Lemma tree_moments u t n : In t (cont (sched u) (Ge u)) -> t_data t = PTree n ->
      moments (rcmp (t_key t)) pt_ifit false (pt_ok (altF (k_att (t_key t))) (attrOf (k_att (t_key t)))) (fits_page (altF (k_att (t_key t))) (attrOf (k_att (t_key t)))) true 0 (@incl row)
        (treeAt sched u n) (fun v => Gp (u + v) n) (fun v => tau (u + v)) (length later).
    Proof.
      intros Ht Ed. pose proof (tree_stays u t n Ht Ed) as Hst.
      assert (Hat : forall v, exists st, nth_error (i_trees (sched (u + v))) n = Some st /\ treeAt sched u n v = st /\ TInv (t_key t) st 0 (Gp (u + v) n) /\ In t (cont (sched (u + v)) (Ge (u + v)))).
      { intro v. destruct (Hst (u + v) ltac:(lia)) as (Hin & st & Hn & HI & _). exists st. split; [exact Hn|]. split; [unfold treeAt; apply nth_error_nth; exact Hn|auto]. }
      constructor.
      - intro v. destruct (Hat v) as (st & _ & -> & HI & _). exact HI.
      - intros v v' L. destruct (Hat v) as (_ & _ & _ & _ & Hin). destruct (WG (u + v) (u + v') ltac:(lia)) as [_ H]. destruct (H t Hin) as (t' & _ & _ & D & _).
        rewrite Ed in D. apply D.
      - intros v v' L. destruct (Hat v) as (st & Hn & E & HI & Hin). destruct (Hat v') as (st' & Hn' & E' & HI' & Hin').
        destruct (WG (u + v) (u + v') ltac:(lia)) as [_ H]. destruct (H t Hin) as (t' & Ht' & _ & D & HR). rewrite Ed in D. destruct D as [-> _].
        rewrite E, E'. unfold tupleRows in HR. rewrite Ed, Hn, Hn' in HR. destruct (HR _ (tree_rows _ _ _ HI)) as (R' & HR' & Hi). rewrite (tree_rows _ _ _ HI') in HR'.
        injection HR' as <-. exact Hi.
      - intros v v' L. apply Wm. lia.
      - intro v. apply Wb.
      - intros v v' E. destruct (Ws _ _ E) as (E1 & _ & E2). unfold treeAt. rewrite E1, E2. auto.
    Qed.

    Lemma tree_settled u t n k : isettled compareFn k sched -> In t (cont (sched u) (Ge u)) -> kcmp (t_key t) k = 0%Z -> t_data t = PTree n ->
      forall v v' b, v <= v' -> at_ (Gp (u + v) n) 0 b -> at_ (Gp (u + v') n) 0 b /\ slo (Gp (u + v') n) b = slo (Gp (u + v) n) b.
    Proof.
      intros Hs Ht Ek Ed. apply (settled_stay _ _ _ (treeAt sched u n) (fun v => Gp (u + v) n) _ _ (tree_moments u t n Ht Ed)).
      destruct (tuples_spec compareFn altF attrOf cmpA rawSize Hcols true false (sched u) (Ge u) (Y_inv _ _ _ (WX u))) as [E _].
      exact (Hs u _ t n E Ht Ek Ed).
    Qed.
    Lemma one_tuple (i : istate) (G : eghost) t t' : IInv false i G -> In t (cont i G) -> In t' (cont i G) -> kcmp (t_key t) (t_key t') = 0%Z -> t = t'.
    Proof.
      intros HI H H' E. apply (ssorted_unique cmp OK (cont i G)); auto. eapply (contents_sorted cmp OK); eauto. exact (X_inv _ _ _ _ _ _ _ _ _ HI).
    Qed.
    Lemma key_eq (a b k : ekey K) : kcmp a k = 0%Z -> kcmp b k = 0%Z -> kcmp a b = 0%Z.
    Proof. intros H1 H2. apply (ktrans0 compareFn altF attrOf cmpA rawSize Hcols a k b H1). apply (cmp_sym_eq _ KOK). exact H2. Qed.

    (** What the tuple of a key holds at moment [u]. *)
    Lemma tuple_between u t R k rows0 rowsN : In t (cont (sched u) (Ge u)) -> kcmp (t_key t) k = 0%Z -> tupleRows (sched u) t = Some R ->
      rowsOf compareFn (sched 0) k = Some rows0 -> rowsOf compareFn (last later ix) k = Some rowsN -> incl rows0 R /\ incl R rowsN.
    Proof.
      intros Ht Ek HR H0 HN. unfold rowsOf in *. split.
      - destruct (keyRows_spec compareFn altF attrOf cmpA rawSize Hcols true false (sched 0) (Ge 0) k (Y_inv _ _ _ (WX 0))) as [(t0 & R0 & Hi & Ek0 & HR0 & E)|[_ E]]; rewrite E in H0; injection H0 as <-; [|intros z []].
        destruct (WG 0 u ltac:(lia)) as [_ H]. destruct (H t0 Hi) as (t1 & Ht1 & E1 & _ & D). destruct (D R0 HR0) as (R1 & HR1 & Hinc).
        assert (t1 = t) as -> by (apply (one_tuple (sched u) (Ge u) t1 t (Y_inv _ _ _ (WX u)) Ht1 Ht); apply key_eq with k; [rewrite E1; exact Ek0|exact Ek]).
        rewrite HR in HR1. injection HR1 as <-. exact Hinc.
      - destruct (WL u) as [_ H]. destruct (H t Ht) as (t1 & Ht1 & E1 & _ & D). destruct (D R HR) as (R1 & HR1 & Hinc).
        destruct (keyRows_spec compareFn altF attrOf cmpA rawSize Hcols true false (last later ix) GL k (Y_inv _ _ _ WXL)) as [(tl & Rl & Hi & Ekl & HRl & E)|[Hno E]]; rewrite E in HN; injection HN as <-.
        + assert (t1 = tl) as -> by (apply (one_tuple (last later ix) GL t1 tl (Y_inv _ _ _ WXL) Ht1 Hi); apply key_eq with k; [rewrite E1; exact Ek|exact Ekl]).
          rewrite HR1 in HRl. injection HRl as <-. exact Hinc.
        + exfalso. apply (Hno t1 Ht1). rewrite E1. exact Ek.
    Qed.

    Lemma key_scan k junk rows0 rowsN : isettled compareFn k sched ->
      rowsOf compareFn (sched 0) k = Some rows0 -> rowsOf compareFn (last later ix) k = Some rowsN ->
      exists fuel s n out, startKeyC compareFn sched fuel k junk = Some s /\ runKeyC useAlt addTo cmpA sched n s = (out, Some true) /\
        let got := regular useAlt addTo cmpA (k_att k) None out in ssorted (rcmp k) got /\ incl rows0 got /\ incl got rowsN.
    Proof.
      intros Hset H0 HN. set (x := mkTup k (PList [])).
      destruct (findLeafC_root cmp OK (et_ifit rawSize) true et_ok et_fit true 0 (@et_rbound K) (et_locate compareFn)
        (et_rbound_ok compareFn altF attrOf rawSize HK) (entryLocate_ok cmp OK) _ _ Ge tau (length later) entry_moments x) as (fuel & t & b & Hf & Hat & Hr).
      pose proof (Y_inv _ _ _ (WX t)) as HI.
      destruct (page_get _ _ _ _ _ _ _ _ _ (X_inv _ _ _ _ _ _ _ _ _ HI) _ _ Hat) as [pg Hg].
      pose proof (findpage compareFn altF attrOf cmpA rawSize Hcols true false (sched t) (Ge t) k HI b pg x eq_refl Hat Hg Hr) as Hfp.
      destruct (et_find compareFn (p_items pg) x) as [found off] eqn:Eet. destruct found.
      - destruct Hfp as (tp & Hn & Hin & Ek). pose proof (katt_eq compareFn _ _ Ek) as Eatt.
        destruct (rows_of compareFn altF attrOf cmpA Hcols true false (sched t) tp (X_data _ _ _ _ _ _ _ _ _ HI tp Hin)) as (R & HR & Hs & _).
        destruct (t_data tp) as [l|n] eqn:Ed.
        + destruct (tuple_between t tp R k rows0 rowsN Hin Ek HR H0 HN) as [I0 IN]. unfold tupleRows in HR. rewrite Ed in HR. injection HR as <-.
          rewrite Eatt in Hs.
          assert (Hreg : regular useAlt addTo cmpA (k_att k) None l = l) by (apply regular_all; [exact HA|exact Hs|exact I]).
          destruct l as [|y l'].
          * exists fuel, KNone, 0, []. split; [unfold startKeyC; fold x; unfold row in *; rewrite Hf, Hg, Eet, Hn, Ed; reflexivity|]. split; [reflexivity|].
            cbn [regular]. split; [constructor|]. split; [exact I0|intros z []].
          * set (e := mkEntry (k_att k) Mem (y :: l') 0%Z (nth 0 (y :: l') junk) false 0 (fun _ => O) : entry datum).
            destruct (runMem_list useAlt addTo cmpA (S (length (rest e))) e eq_refl eq_refl eq_refl) as (e' & Hrun & Hfin).
            exists fuel, (KMem e), (S (length (rest e))), (y :: l'). split; [unfold startKeyC; fold x; unfold row in *; rewrite Hf, Hg, Eet, Hn, Ed; reflexivity|].
            split; [cbn [runKeyC]; rewrite Hrun, Hfin; reflexivity|]. cbv zeta. rewrite Hreg. split; [exact Hs|]. split; [exact I0|exact IN].
        + destruct (tree_stays t tp n Hin Ed (S t) ltac:(lia)) as (Hin1 & st & Hnt & HIt & Hfull).
          pose proof (tree_moments (S t) tp n Hin1 Ed) as M.
          assert (Hrows : forall v, incl rows0 (contents (treeAt sched (S t) n v) (Gp (S t + v) n)) /\ incl (contents (treeAt sched (S t) n v) (Gp (S t + v) n)) rowsN).
          { intro v. destruct (tree_stays t tp n Hin Ed (S t + v) ltac:(lia)) as (Hinv & stv & Hnv & HIv & _).
            assert (Ev : treeAt sched (S t) n v = stv) by (unfold treeAt; apply nth_error_nth; exact Hnv). rewrite Ev.
            apply (tuple_between (S t + v) tp _ k rows0 rowsN Hinv Ek); auto. unfold tupleRows. rewrite Ed, Hnv. exact (tree_rows _ _ _ HIv). }
          assert (Efst : treeAt sched (S t) n 0 = st) by (unfold treeAt; apply nth_error_nth; rewrite Nat.add_0_r; exact Hnt).
          assert (Hne : contents (treeAt sched (S t) n 0) (Gp (S t + 0) n) <> []) by (rewrite Efst, Nat.add_0_r; exact Hfull).
          destruct (scan_complete useAlt addTo cmpA HA (k_att (t_key tp)) pt_ifit false _ _ (row_valid _ _) (treeAt sched (S t) n) (fun v => Gp (S t + v) n) _ _ M
            (tree_settled (S t) tp n k Hset Hin1 Ek Ed) rowsN _ (fun v => proj2 (Hrows v)) (fun v => m_rows _ _ _ _ _ _ _ _ _ _ _ _ M 0 v ltac:(lia)) junk Hne)
            as (fuel' & c & m & out & c' & Hst & Hrun & Hfin & Hincl & Hall & Hsort).
          rewrite Eatt in *. exists (fuel + fuel'), (KTree (S t) n c), m, out. split; [|split].
          * unfold startKeyC. fold x. rewrite (findLeafC_more _ _ _ _ _ _ _ fuel' _ _ _ _ Hf). rewrite Hg, Eet, Hn, Ed.
            rewrite (Nat.add_comm fuel fuel'), (startC_more _ _ fuel _ _ _ Hst). reflexivity.
          * cbn [runKeyC]. rewrite Hrun, Hfin. reflexivity.
          * cbv zeta. split; [exact Hsort|]. split.
            -- intros z Hz. apply Hall. exact (proj1 (Hrows 0) z Hz).
            -- intros z Hz. apply Hincl. eapply regular_incl. exact Hz.
      - exists fuel, KNone, 0, []. split; [unfold startKeyC; fold x; rewrite Hf, Hg, Eet; reflexivity|]. split; [reflexivity|]. cbn [regular]. split; [constructor|].
        split; [|intros z []]. unfold rowsOf in H0.
        destruct (keyRows_spec compareFn altF attrOf cmpA rawSize Hcols true false (sched 0) (Ge 0) k (Y_inv _ _ _ (WX 0))) as [(t0 & R0 & Hi & Ek0 & HR0 & E)|[_ E]]; rewrite E in H0; injection H0 as <-; [|intros z []].
        exfalso. destruct (WG 0 t ltac:(lia)) as [_ H]. destruct (H t0 Hi) as (t1 & Ht1 & E1 & _). apply (Hfp t1 Ht1). rewrite E1. exact Ek0.
    Qed.
  End Watch.

  (** The page reads of a query, from the history. *)
  Lemma watch_of ix acked tried calls later sched : ireaches compareFn altF attrOf cmpA rawSize dflt ix acked tried ->
    iinserting compareFn altF attrOf cmpA rawSize dflt ix calls later -> observed (ix :: later) sched ->
    exists Ge Gp tau GL GTL, (forall t, XInv (sched t) (Ge t) (Gp t)) /\
      (forall t t', t <= t' -> igrow (sched t) (Ge t) (Gp t) (sched t') (Ge t') (Gp t')) /\ XInv (last later ix) GL GTL /\
      (forall t, igrow (sched t) (Ge t) (Gp t) (last later ix) GL GTL) /\ (forall t t', t <= t' -> tau t <= tau t') /\
      (forall t, tau t <= length later) /\ (forall t t', tau t = tau t' -> sched t = sched t' /\ Ge t = Ge t' /\ Gp t = Gp t') /\
      forall t, In (sched t) (ix :: later).
  Proof.
    intros Hr Hi (tau & Hm & Ht). destruct (reach_x ix acked tried Hr) as (G0 & GT0 & HX). destruct (iinserting_chain ix calls later Hi G0 GT0 HX) as (G' & GT' & Hc).
    destruct (ichain_ghosts ix G0 GT0 later G' GT' HX Hc) as (Gl & HL & H0 & HIs & HR).
    assert (Hb : forall t, tau t < S (length later)) by (intro t; pose proof (nth_some_lt _ _ _ (Ht t)) as L; exact L).
    set (g := fun t => nth (tau t) Gl (G0, GT0)).
    assert (HG : forall t, nth_error Gl (tau t) = Some (g t)) by (intro t; unfold g; apply nth_error_nth'; rewrite HL; apply Hb).
    assert (Es : nth_error (ix :: later) (length later) = Some (last later ix)).
    { clear. revert ix. induction later as [|s tr IH]; intro ix; [reflexivity|]. rewrite last_cons_eq. exact (IH s). }
    destruct (nth_error Gl (length later)) as [gl|] eqn:El; [|apply nth_error_None in El; lia].
    exists (fun t => fst (g t)), (fun t => snd (g t)), tau, (fst gl), (snd gl).
    split; [intro t; exact (HIs _ _ _ (Ht t) (HG t))|]. split; [intros t t' L; exact (HR _ _ _ _ _ _ (Hm _ _ L) (Ht t) (Ht t') (HG t) (HG t'))|].
    split; [exact (HIs _ _ _ Es El)|]. split; [intro t; assert (L : tau t <= length later) by (specialize (Hb t); lia); exact (HR (tau t) (length later) _ _ _ _ L (Ht t) Es (HG t) El)|].
    split; [exact Hm|]. split; [intro t; specialize (Hb t); lia|]. split.
    - intros t t' E. split; [|unfold g; rewrite E; auto]. pose proof (Ht t) as A. rewrite E, (Ht t') in A. congruence.
    - intro t. eapply nth_error_In. exact (Ht t).
  Qed.
End Ix.
