(** Proofs: what the index has for a query key is what the rows of the table say. *)
From Coq Require Import NArith ZArith Lia List Permutation Sorted Bool Arith.
From Verif Require Import Base Ord OrdProof Codec CodecSpec LeafPage LeafSpec LeafCodec Entries EntriesSpec EntriesProof Bulk BulkSpec BTree BTreeInv BTreeFind PostingTree PostingTreeSpec PostingTreeProof EntryTree EntryTreeProof IndexSpec IndexProof ScanEntry ScanEntryProof Scan ScanSpec IndexScan VacTreeSpec VacIndex VacScanSpec LifeSpec QuerySpec TreeFound.
Import ListNotations.
Local Open Scope Z_scope.

(** ** lists *)
Lemma Permutation_filter {T} (f : T -> bool) l l' : Permutation l l' -> Permutation (filter f l) (filter f l').
Proof.
  induction 1; cbn [filter]; [constructor| | |eapply perm_trans; eauto].
  - destruct (f x); [constructor|]; assumption.
  - destruct (f x), (f y); try apply perm_swap; apply Permutation_refl.
Qed.
Lemma filter_filter {T} (f g : T -> bool) l : filter f (filter g l) = filter (fun x => g x && f x) l.
Proof. induction l as [|x l IH]; [reflexivity|]. cbn [filter]. destruct (g x); cbn [filter andb]; [destruct (f x)|]; rewrite IH; reflexivity. Qed.
Lemma filter_none {T} (f : T -> bool) l : (forall x, In x l -> f x = false) -> filter f l = [].
Proof. induction l as [|x l IH]; intro H; [reflexivity|]. cbn [filter]. rewrite (H x) by (left; reflexivity). apply IH. intros; apply H; right; auto. Qed.
Lemma filter_all {T} (f : T -> bool) l : (forall x, In x l -> f x = true) -> filter f l = l.
Proof. induction l as [|x l IH]; intro H; [reflexivity|]. cbn [filter]. rewrite (H x) by (left; reflexivity). rewrite IH; [reflexivity|]. intros; apply H; right; auto. Qed.
Lemma filter_split {T} (f : T -> bool) l : Permutation (filter f l ++ filter (fun x => negb (f x)) l) l.
Proof.
  induction l as [|x l IH]; [constructor|]. cbn [filter]. destruct (f x); cbn [negb app]; [constructor; exact IH|].
  symmetry. apply Permutation_cons_app. symmetry. exact IH.
Qed.
(** classes of a list by representatives *)
Lemma classes {T R} (eqv : R -> T -> bool) : forall (ks : list R) (P : list T),
  (forall p, In p P -> exists k, In k ks /\ eqv k p = true) ->
  (forall l1 k l2 k' l3 p, ks = l1 ++ k :: l2 ++ k' :: l3 -> In p P -> eqv k p = true -> eqv k' p = false) ->
  Permutation (concat (map (fun k => filter (eqv k) P) ks)) P.
Proof.
  induction ks as [|k ks IH]; intros P Hc Hd.
  - destruct P as [|p P]; [constructor|]. destruct (Hc p (or_introl eq_refl)) as (k & [] & _).
  - cbn [map concat]. eapply perm_trans; [|apply (filter_split (eqv k))]. apply Permutation_app_head.
    assert (E : forall k', In k' ks -> filter (eqv k') P = filter (eqv k') (filter (fun x => negb (eqv k x)) P)).
    { intros k' Hk'. rewrite filter_filter. apply filter_ext_in. intros p Hp. destruct (eqv k p) eqn:Ek; [|reflexivity]. cbn [negb andb].
      apply in_split in Hk' as (l1 & l2 & ->). exact (Hd [] k l1 k' l2 p eq_refl Hp Ek). }
    rewrite (map_ext_in _ _ ks E). apply IH.
    + intros p Hp. apply filter_In in Hp as [Hp Hn]. destruct (Hc p Hp) as (k' & [<-|Hk'] & Ek'); [rewrite Ek' in Hn; discriminate|]. eauto.
    + intros l1 k1 l2 k2 l3 p E' Hp. apply filter_In in Hp as [Hp _]. apply (Hd (k :: l1) k1 l2 k2 l3 p); [rewrite E'; reflexivity|exact Hp].
Qed.

Lemma tid_eqb_eq p q : tid_eqb p q = true <-> p = q.
Proof.
  unfold tid_eqb. destruct p as [b o], q as [b' o']. cbn. rewrite andb_true_iff, !N.eqb_eq. split; [intros [-> ->]; reflexivity|].
  intro E. injection E as -> ->. auto.
Qed.
Lemma find_filter {T} (f : T -> bool) l : find f l = hd_error (filter f l).
Proof. induction l as [|x l IH]; [reflexivity|]. cbn [find filter]. destruct (f x); [reflexivity|exact IH]. Qed.

(** ** groups of equal TIDs *)
Section Groups.
  Context {A : Type}.
  Variable join : option (A -> A -> A).
  Notation item := (item A).
  Definition group : Type := item * list item.
  Definition g_all (g : group) : list item := fst g :: snd g.
  Definition joined (g : group) : item := mkItem (ip (fst g)) (fold_left (joinAdd join) (map add (snd g)) (add (fst g))).
  Fixpoint apart (gs : list group) : Prop :=
    match gs with
    | g :: ((g' :: _) as r) => ip (fst g) <> ip (fst g') /\ apart r
    | _ => True
    end.
  Lemma collapse_groups_from : forall (rest : list item) (x : item) (pre : list item) (c : item),
    Forall (fun y => ip y = ip x) pre -> c = joined (x, pre) ->
    exists t gs, pre ++ rest = pre ++ t ++ concat (map g_all gs) /\
      collapse join (Some c) rest = map joined ((x, pre ++ t) :: gs) /\
      Forall (fun y => ip y = ip x) (pre ++ t) /\ Forall (fun g => Forall (fun y => ip y = ip (fst g)) (snd g)) gs /\ apart ((x, pre ++ t) :: gs).
  Proof.
    induction rest as [|z r IH]; intros x pre c Hpre ->.
    - exists [], []. rewrite !app_nil_r. cbn. auto.
    - cbn [collapse]. cbn [joined ip add]. destruct (Z.eqb_spec (rumCompareItemPointers (ip (fst (x, pre))) (ip z)) 0) as [E|E].
      + apply cip_eq in E. cbn [fst] in E.
        destruct (IH x (pre ++ [z]) (mkItem (ip z) (joinAdd join (add (joined (x, pre))) (add z)))) as (t & gs & E1 & E2 & E3 & E4 & E5).
        * apply Forall_app. split; [exact Hpre|]. constructor; [auto|constructor].
        * unfold joined. cbn [fst snd add ip]. rewrite map_app, fold_left_app. cbn [map fold_left]. rewrite E. reflexivity.
        * exists (z :: t), gs. rewrite <- app_assoc in *. cbn [app] in *. split.
          { f_equal. rewrite <- app_assoc in E1. apply app_inv_head in E1. exact E1. }
          rewrite <- !app_assoc in *. cbn [app] in *. auto.
      + destruct (IH z [] z) as (t & gs & E1 & E2 & E3 & E4 & E5); [constructor|destruct z; reflexivity|].
        exists [], ((z, t) :: gs). rewrite app_nil_r. cbn [app] in *. split; [cbn [map concat app]; rewrite E1; reflexivity|].
        split; [rewrite E2; reflexivity|]. split; [exact Hpre|]. split; [constructor; [exact E3|exact E4]|].
        split; [|exact E5]. cbn. intro H. apply E. apply cip_eq. exact H.
  Qed.
  Lemma collapse_groups rest : exists gs, rest = concat (map g_all gs) /\ collapse join None rest = map joined gs /\
    Forall (fun g => Forall (fun y => ip y = ip (fst g)) (snd g)) gs /\ apart gs.
  Proof.
    destruct rest as [|x r]; [exists []; cbn; auto|]. cbn [collapse].
    destruct (collapse_groups_from r x [] x) as (t & gs & E1 & E2 & E3 & E4 & E5); [constructor|destruct x; reflexivity|].
    cbn [app] in *. exists ((x, t) :: gs). split; [cbn; rewrite E1; reflexivity|]. split; [exact E2|]. split; [constructor; auto|exact E5].
  Qed.

  Variable cmp : item -> item -> Z.
  Hypothesis CT : total_cmp cmp.
  (** representatives ascend strictly *)
  Lemma groups_sorted gs : Forall (fun g => Forall (fun y => ip y = ip (fst g)) (snd g)) gs -> apart gs ->
    StronglySorted (fun a b => cmp a b <= 0) (concat (map g_all gs)) ->
    (forall a b, In a (concat (map g_all gs)) -> In b (concat (map g_all gs)) -> cmp a b = 0 -> ip a = ip b) ->
    ssorted cmp (map fst gs).
  Proof.
    induction gs as [|g gs IH]; intros Hf Ha Hs Hz; [constructor|]. inversion Hf as [|? ? Hg Hgs]; subst. cbn [map concat] in *.
    assert (Hs' : StronglySorted (fun a b => cmp a b <= 0) (concat (map g_all gs))).
    { clear - Hs. induction (g_all g) as [|y l IHl]; [exact Hs|]. inversion Hs; subst. auto. }
    assert (IH' : ssorted cmp (map fst gs)).
    { apply IH; [exact Hgs|destruct gs; [exact I|destruct Ha; assumption]|exact Hs'|].
      intros a b H1 H2. apply Hz; apply in_app_iff; auto. }
    apply ssorted_cons; [exact IH'|]. destruct gs as [|g' gs]; [constructor|]. destruct Ha as [Hne _].
    assert (H0 : cmp (fst g) (fst g') < 0).
    { assert (In (fst g') (concat (map g_all (g' :: gs)))) as Hi by (left; reflexivity).
      assert (cmp (fst g) (fst g') <= 0).
      { unfold g_all at 1 in Hs. cbn [app] in Hs. inversion Hs as [|? ? _ Hall]; subst. rewrite Forall_forall in Hall. apply Hall. apply in_app_iff. right. exact Hi. }
      assert (cmp (fst g) (fst g') <> 0); [|lia]. intro E. apply Hne. apply Hz; [left; reflexivity|apply in_app_iff; right; exact Hi|exact E]. }
    cbn [map] in *. constructor; [exact H0|]. apply ssorted_inv in IH' as [_ Hall]. eapply Forall_impl; [|exact Hall].
    cbn. intros b Hb. eapply (cmp_lt_trans _ CT); eauto.
  Qed.
  (** rows with a given TID *)
  Lemma groups_tid gs p : Forall (fun g => Forall (fun y => ip y = ip (fst g)) (snd g)) gs ->
    ssorted cmp (map fst gs) -> (forall g g', In g gs -> In g' gs -> ip (fst g) = ip (fst g') -> cmp (fst g) (fst g') = 0) ->
    match find (fun y => tid_eqb (ip y) p) (map joined gs) with
    | None => filter (fun y => tid_eqb (ip y) p) (concat (map g_all gs)) = []
    | Some y => exists g, In g gs /\ y = joined g /\ filter (fun y => tid_eqb (ip y) p) (concat (map g_all gs)) = g_all g
    end.
  Proof.
    induction gs as [|g gs IH]; intros Hf Hs Hz; [reflexivity|]. inversion Hf as [|? ? Hg Hgs]; subst. cbn [map find concat joined ip].
    apply ssorted_inv in Hs as [Hs Hall]. rewrite filter_app.
    destruct (tid_eqb (ip (fst g)) p) eqn:E.
    - exists g. split; [left; reflexivity|]. split; [reflexivity|]. apply tid_eqb_eq in E.
      rewrite filter_all.
      2: { intros y [<-|Hy]; apply tid_eqb_eq; [exact E|]. rewrite Forall_forall in Hg. rewrite (Hg y Hy). exact E. }
      rewrite filter_none; [apply app_nil_r|]. intros y Hy. destruct (tid_eqb (ip y) p) eqn:Ey; [|reflexivity]. exfalso. apply tid_eqb_eq in Ey.
      apply in_concat in Hy as (l & Hl & Hy). apply in_map_iff in Hl as (g' & <- & Hg'). rewrite Forall_forall in Hgs, Hall.
      assert (ip (fst g') = p). { destruct Hy as [<-|Hy]; [exact Ey|]. specialize (Hgs g' Hg'). rewrite Forall_forall in Hgs. rewrite <- (Hgs y Hy). exact Ey. }
      specialize (Hall (fst g') (in_map fst _ _ Hg')). cbn in Hall. rewrite (Hz g g') in Hall; [lia|left; reflexivity|right; exact Hg'|congruence].
    - assert (E1 : filter (fun y => tid_eqb (ip y) p) (g_all g) = []).
      { apply filter_none. intros y Hy. destruct (tid_eqb (ip y) p) eqn:Ey; [|reflexivity]. exfalso. apply tid_eqb_eq in Ey. rewrite Forall_forall in Hg.
        assert (ip (fst g) = p) as Ep by (destruct Hy as [<-|Hy]; [exact Ey|rewrite <- (Hg y Hy); exact Ey]). apply tid_eqb_eq in Ep. congruence. }
      rewrite E1. cbn [app]. specialize (IH Hgs Hs ltac:(intros; apply Hz; auto; right; auto)).
      destruct (find _ (map joined gs)) as [y|]; [|exact IH]. destruct IH as (g' & Hg' & H1 & H2). exists g'. split; [right; exact Hg'|auto].
  Qed.
End Groups.

(** ** order facts on keys *)
Section Keys.
  Context {K : Type}.
  Variable compareFn : N -> K -> K -> Z.
  Hypothesis HK : forall n, total_cmp (compareFn n).
  Notation kcmp := (rumCompareAttEntries compareFn).
  Let KOK : total_cmp kcmp := att_total compareFn HK.

  Lemma kle_att a b : kcmp a b <= 0 -> (k_att a <= k_att b)%N.
  Proof. unfold rumCompareAttEntries. destruct (N.eqb_spec (k_att a) (k_att b)) as [->|]; [lia|]. cbn [negb]. destruct (N.ltb_spec (k_att a) (k_att b)); lia. Qed.
  Lemma kle_cat a b : kcmp a b <= 0 -> k_att a = k_att b -> cat_code (k_cat a) <= cat_code (k_cat b).
  Proof.
    unfold rumCompareAttEntries, rumCompareEntries. intros H E. rewrite E, N.eqb_refl in H. cbn [negb] in H.
    destruct (Z.eqb_spec (cat_code (k_cat a)) (cat_code (k_cat b))) as [->|]; [lia|]. cbn [negb] in H.
    destruct (Z.ltb_spec (cat_code (k_cat a)) (cat_code (k_cat b))); lia.
  Qed.
  Lemma kle_val a b : kcmp a b <= 0 -> k_att a = k_att b -> k_cat a = CatNormKey -> k_cat b = CatNormKey -> compareFn (k_att a) (k_val a) (k_val b) <= 0.
  Proof. unfold rumCompareAttEntries, rumCompareEntries. intros H E Ea Eb. rewrite E, N.eqb_refl, Ea, Eb in H. rewrite E. exact H. Qed.
  Lemma keq a b : kcmp a b = 0 -> k_att a = k_att b /\ k_cat a = k_cat b /\ (k_cat a = CatNormKey -> compareFn (k_att a) (k_val a) (k_val b) = 0).
  Proof.
    unfold rumCompareAttEntries, rumCompareEntries. destruct (N.eqb_spec (k_att a) (k_att b)) as [E|]; cbn [negb].
    2: { destruct (_ <? _)%N; discriminate. }
    destruct (Z.eqb_spec (cat_code (k_cat a)) (cat_code (k_cat b))) as [E'|]; cbn [negb].
    2: { destruct (_ <? _)%Z; discriminate. }
    intro H. split; [exact E|]. split; [destruct (k_cat a), (k_cat b); cbn in E'; congruence|]. intro E2. rewrite E2 in H. exact H.
  Qed.
  Lemma cat_norm c : cat_code c = 0 -> c = CatNormKey.
  Proof. destruct c; cbn; lia || reflexivity. Qed.

  Notation asks := (asks compareFn).
  Lemma asks_att q k : asks q k = true -> k_att k = rq_att q.
  Proof.
    unfold QuerySpec.asks. destruct (rq_partial q); [rewrite !andb_true_iff; intros [[[H _] _] _]; apply N.eqb_eq; exact H|].
    destruct (rq_cat q); try (intro H; apply Z.eqb_eq, keq in H as [H _]; exact H).
    rewrite andb_true_iff. intros [H _]. apply N.eqb_eq. exact H.
  Qed.
  (** the key is one [P] speaks about, if it is a regular key of the column *)
  Definition in_key (P : K -> Prop) (q : qreq K) (k : ekey K) : Prop := k_att k = rq_att q -> k_cat k = CatNormKey -> P (k_val k).
  Lemma asks_eq P q k k' : partial_ok compareFn P q -> in_key P q k -> in_key P q k' -> kcmp k k' = 0 -> asks q k = asks q k'.
  Proof.
    intros Hp Pk Pk' H. pose proof (keq _ _ H) as (Ea & Ec & Ev). unfold QuerySpec.asks, partial_ok in *. destruct (rq_partial q) as [f|].
    - destruct (Hp f eq_refl) as (_ & _ & Hf). rewrite <- Ea, <- Ec. destruct (N.eqb_spec (k_att k) (rq_att q)) as [E|]; [|reflexivity]. cbn [andb].
      destruct (cat_code (rq_cat q) =? 0); [|reflexivity]. destruct (Z.eqb_spec (cat_code (k_cat k)) 0) as [E0|]; [|reflexivity]. cbn [andb].
      apply cat_norm in E0. rewrite (Hf (k_val k) (k_val k')); [reflexivity|apply Pk; auto|apply Pk'; congruence|]. rewrite <- E. apply Ev. exact E0.
    - assert (Hx : forall x, (kcmp k x =? 0) = (kcmp k' x =? 0)).
      { intro x. pose proof (cmp_eq_l _ KOK k k' x H). destruct (kcmp k x) eqn:E1, (kcmp k' x) eqn:E2; cbn in *; try reflexivity; lia. }
      destruct (rq_cat q); try apply Hx. rewrite <- Ea, <- Ec. reflexivity.
  Qed.

  (** collectMatch takes exactly the tuples asked for *)
  Notation etup := (etup K).
  Lemma collect_suffix P q suf : isMany q = true -> (rq_partial q <> None -> rq_cat q = CatNormKey) -> partial_ok compareFn P q ->
    (forall t : etup, In t suf -> in_key P q (t_key t)) -> ssorted kcmp (map t_key suf) -> (forall t : etup, In t suf -> kcmp (mkKey (rq_att q) (rq_key q) (rq_cat q)) (t_key t) <= 0) ->
    collectMatch q suf = filter (fun t => asks q (t_key t)) suf.
  Proof.
    intros Hm Hn Hp. induction suf as [|t suf IH]; intros Hik Hs Hge; [reflexivity|].
    cbn [map] in Hs. apply ssorted_inv in Hs as [Hs Hall]. rewrite Forall_map, Forall_forall in Hall.
    specialize (IH ltac:(intros; apply Hik; right; auto) Hs ltac:(intros; apply Hge; right; auto)). cbn [collectMatch filter].
    assert (Hgt : kcmp (mkKey (rq_att q) (rq_key q) (rq_cat q)) (t_key t) <= 0) by (apply Hge; left; reflexivity).
    assert (Hstop : forall R, asks q (t_key t) = false -> (forall t', In t' suf -> asks q (t_key t') = false) ->
              R = filter (fun t => asks q (t_key t)) suf -> [] = if asks q (t_key t) then t :: R else R).
    { intros R -> H2 ->. symmetry. apply filter_none. exact H2. }
    destruct (N.eqb_spec (k_att (t_key t)) (rq_att q)) as [Ea|Ea]; cbn [negb].
    2: { assert (Hlt : (rq_att q < k_att (t_key t))%N) by (apply kle_att in Hgt; cbn in Hgt; lia).
         apply Hstop; [| |reflexivity].
         - destruct (asks q (t_key t)) eqn:E; [apply asks_att in E; lia|reflexivity].
         - intros t' Ht'. specialize (Hall t' Ht'). assert (H : kcmp (t_key t) (t_key t') <= 0) by lia. apply kle_att in H.
           destruct (asks q (t_key t')) eqn:E; [apply asks_att in E; lia|reflexivity]. }
    unfold isMany in Hm. destruct (rq_partial q) as [f|] eqn:Ef.
    - specialize (Hn ltac:(discriminate)). destruct (Hp f Ef) as (P1 & P2 & P3).
      assert (Hasks : forall k, asks q k = (k_att k =? rq_att q)%N && (cat_code (k_cat k) =? 0) && (f (k_val k) =? 0)).
      { intro k. unfold QuerySpec.asks. rewrite Ef, Hn. rewrite andb_true_r. reflexivity. }
      destruct (Z.eqb_spec (cat_code (k_cat (t_key t))) 0) as [E0|E0].
      + apply cat_norm in E0. rewrite E0. rewrite Hasks. rewrite Ea, N.eqb_refl, E0. cbn [andb cat_code Z.eqb].
        destruct (Z.ltb_spec 0 (f (k_val (t_key t)))) as [L|L].
        * destruct (Z.eqb_spec (f (k_val (t_key t))) 0); [lia|].
          symmetry. apply filter_none. intros t' Ht'. specialize (Hall t' Ht'). assert (Hle : kcmp (t_key t) (t_key t') <= 0) by lia.
          rewrite Hasks. destruct (N.eqb_spec (k_att (t_key t')) (rq_att q)) as [Ea'|]; [|reflexivity]. cbn [andb].
          destruct (Z.eqb_spec (cat_code (k_cat (t_key t'))) 0) as [E0'|]; [|reflexivity]. cbn [andb]. apply cat_norm in E0'.
          apply Z.eqb_neq. apply (P2 (k_val (t_key t))); [apply (Hik t (or_introl eq_refl)); auto|apply (Hik t' (or_intror Ht')); auto| | |exact L].
          -- apply kle_val in Hgt; cbn [k_att k_cat k_val] in *; auto.
          -- apply kle_val in Hle; auto; [|congruence]. rewrite Ea in Hle. exact Hle.
        * destruct (Z.ltb_spec (f (k_val (t_key t))) 0) as [L'|L'].
          -- destruct (Z.eqb_spec (f (k_val (t_key t))) 0); [lia|]. exact IH.
          -- assert (f (k_val (t_key t)) = 0) as -> by lia. cbn [Z.eqb]. rewrite IH. reflexivity.
      + assert (Hc : k_cat (t_key t) <> CatNormKey) by (intro E; apply E0; rewrite E; reflexivity).
        assert (Hres : [] = if asks q (t_key t) then t :: collectMatch q suf else collectMatch q suf).
        { apply Hstop; [| |exact IH].
          - rewrite Hasks. destruct (Z.eqb_spec (cat_code (k_cat (t_key t))) 0); [contradiction|]. rewrite andb_false_r. reflexivity.
          - intros t' Ht'. rewrite Hasks. specialize (Hall t' Ht'). assert (Hle : kcmp (t_key t) (t_key t') <= 0) by lia.
            destruct (N.eqb_spec (k_att (t_key t')) (rq_att q)) as [Ea'|]; [|reflexivity]. cbn [andb].
            destruct (Z.eqb_spec (cat_code (k_cat (t_key t'))) 0) as [E0'|]; [|reflexivity]. exfalso.
            apply kle_cat in Hle; [|congruence]. apply kle_cat in Hgt; [|cbn; congruence]. cbn [k_cat] in Hgt. rewrite Hn in Hgt. cbn in Hgt. lia. }
        rewrite <- IH. destruct (k_cat (t_key t)); try exact Hres. congruence.
    - destruct (rq_cat q) eqn:Eq; try discriminate.
      assert (Hasks : forall k, asks q k = (k_att k =? rq_att q)%N && negb (rq_all q && (cat_code (k_cat k) =? 3))).
      { intro k. unfold QuerySpec.asks. rewrite Ef, Eq. reflexivity. }
      assert (Htake : asks q (t_key t) = true -> t :: collectMatch q suf = if asks q (t_key t) then t :: filter (fun t => asks q (t_key t)) suf else filter (fun t => asks q (t_key t)) suf).
      { intros ->. rewrite IH. reflexivity. }
      destruct (rq_all q) eqn:Eall.
      + destruct (Z.eqb_spec (cat_code (k_cat (t_key t))) 3) as [E3|E3].
        * assert (k_cat (t_key t) = CatNullItem) as -> by (destruct (k_cat (t_key t)); cbn in E3; try lia; reflexivity).
          apply Hstop; [| |reflexivity].
          -- rewrite Hasks, E3, andb_false_r. reflexivity.
          -- intros t' Ht'. rewrite Hasks. specialize (Hall t' Ht'). assert (Hle : kcmp (t_key t) (t_key t') <= 0) by lia.
             destruct (N.eqb_spec (k_att (t_key t')) (rq_att q)) as [Ea'|]; [|reflexivity]. cbn [andb].
             apply kle_cat in Hle; [|congruence]. assert (cat_code (k_cat (t_key t')) = 3) as -> by (destruct (k_cat (t_key t')); cbn in *; lia). reflexivity.
        * assert (Ht : asks q (t_key t) = true).
          { rewrite Hasks, Ea, N.eqb_refl. destruct (Z.eqb_spec (cat_code (k_cat (t_key t))) 3); [contradiction|reflexivity]. }
          specialize (Htake Ht). destruct (k_cat (t_key t)); try exact Htake. cbn in E3. lia.
      + apply Htake. rewrite Hasks, Ea, N.eqb_refl. reflexivity.
  Qed.
  Lemma collect_prefix P q pre : isMany q = true -> (rq_partial q <> None -> rq_cat q = CatNormKey) -> partial_ok compareFn P q ->
    (forall t : etup, In t pre -> in_key P q (t_key t)) ->
    (forall t : etup, In t pre -> kcmp (t_key t) (mkKey (rq_att q) (rq_key q) (rq_cat q)) < 0) ->
    filter (fun t => asks q (t_key t)) pre = [].
  Proof.
    intros Hm Hn Hp Hik Hlt. apply filter_none. intros t Ht. specialize (Hlt t Ht). specialize (Hik t Ht). destruct (asks q (t_key t)) eqn:E; [|reflexivity]. exfalso.
    pose proof (asks_att _ _ E) as Ea. unfold isMany in Hm. unfold QuerySpec.asks in E. destruct (rq_partial q) as [f|] eqn:Ef.
    - specialize (Hn ltac:(discriminate)). destruct (Hp f Ef) as (P1 & _). rewrite !andb_true_iff in E. destruct E as [[[_ _] E0] E1].
      apply Z.eqb_eq in E0. apply cat_norm in E0. apply Z.eqb_eq, P1 in E1; [|apply Hik; auto].
      unfold rumCompareAttEntries, rumCompareEntries in Hlt. cbn [k_att k_cat k_val] in Hlt. rewrite Ea, N.eqb_refl, E0, Hn in Hlt. cbn in Hlt.
      apply (cmp_le_sym _ (HK _)) in E1. lia.
    - destruct (rq_cat q); try discriminate. unfold rumCompareAttEntries, rumCompareEntries in Hlt. cbn [k_att k_cat k_val] in Hlt. rewrite Ea, N.eqb_refl in Hlt.
      destruct (k_cat (t_key t)); cbn in Hlt; lia.
  Qed.
End Keys.

(** ** what the index has for a query key *)
Section Found.
  Context {K : Type}.
  Variable compareFn : N -> K -> K -> Z.
  Variable altOf : N -> bool.
  Variable attrOf : N -> attr.
  Variable cmpA : datum -> datum -> Z.
  Variable rawSize : ekey K -> N.
  Hypothesis Hcols : columns_ok compareFn altOf attrOf cmpA.
  Variables (useAlt : bool) (addTo : N).
  Hypothesis HaltOf : forall n, altOf n = altAt addTo useAlt n.
  Variable tuplesort : (row -> row -> Z) -> list row -> list row.
  Hypothesis Hsort : sorter tuplesort.
  Variable junk : qreq K -> row.
  Variable joinFn : joins datum.
  Hypothesis Hidem : useAlt = true -> forall f a, joinFn addTo = Some f -> f a a = a.
  Notation kcmp := (rumCompareAttEntries compareFn).
  Notation hrow := (@hrow K datum).
  Notation asks := (asks compareFn).
  Notation cont ix G := (contents (i_entry ix) G).
  Let HK := proj1 Hcols.
  Let HA := proj1 (proj2 Hcols).
  Let KOK : total_cmp kcmp := att_total compareFn HK.
  Notation cmpAt att := (compareRumItem (altAt addTo useAlt att) cmpA).
  Variable table : list hrow.
  Hypothesis Hnd : NoDup (map r_tid table).
  Notation pairs := (flat_map (row_pairs addTo) table).
  Definition asked (q : qreq K) : list row := map snd (filter (fun e => asks q (fst e)) pairs).

  Lemma row_pairs_facts (r : hrow) e : In e (row_pairs addTo r) -> ip (snd e) = r_tid r /\ (k_att (fst e) = addTo -> add (snd e) = r_attach r).
  Proof.
    unfold row_pairs. generalize 1%N. induction (r_cols r) as [|es cols IH]; intros att H; [destruct H|]. cbn [col_pairs] in H. apply in_app_iff in H as [H|H]; [|eauto].
    apply in_map_iff in H as ([[k c] a] & <- & _). cbn. split; [reflexivity|]. intros ->. rewrite N.eqb_refl. reflexivity.
  Qed.
  Lemma pairs_row e : In e pairs -> exists r, In r table /\ In e (row_pairs addTo r).
  Proof. intro H. apply in_flat_map in H. exact H. Qed.
  Lemma asked_in q y : In y (asked q) -> exists r e, In r table /\ In e (row_pairs addTo r) /\ y = snd e /\ asks q (fst e) = true /\ ip y = r_tid r.
  Proof.
    intro H. apply in_map_iff in H as (e & <- & He). apply filter_In in He as [He Ha]. destruct (pairs_row e He) as (r & Hr & Hi). exists r, e.
    split; [exact Hr|]. split; [exact Hi|]. split; [reflexivity|]. split; [exact Ha|]. apply (row_pairs_facts r e Hi).
  Qed.
  Lemma tid_row r r' : In r table -> In r' table -> r_tid r = r_tid r' -> r = r'.
  Proof.
    clear - Hnd. induction table as [|z l IH]; intros H H' E; [destruct H|]. cbn in Hnd. inversion Hnd as [|? ? Hn Hl]; subst.
    destruct H as [<-|H], H' as [<-|H']; [reflexivity| | |auto].
    - exfalso. apply Hn. rewrite E. apply in_map. exact H'.
    - exfalso. apply Hn. rewrite <- E. apply in_map. exact H.
  Qed.
  (** one row's part *)
  Lemma asked_row q r : In r table -> filter (fun y => tid_eqb (ip y) (r_tid r)) (asked q) = map snd (filter (fun e => asks q (fst e)) (row_pairs addTo r)).
  Proof.
    intro Hr. unfold asked. clear Hsort Hidem HaltOf.
    assert (E : forall l : list (ekey K * row), filter (fun y => tid_eqb (ip y) (r_tid r)) (map snd l) = map snd (filter (fun e => tid_eqb (ip (snd e)) (r_tid r)) l)).
    { unfold row. induction l as [|e l IH]; [reflexivity|]. cbn [map filter]. destruct (tid_eqb (ip (snd e)) (r_tid r)); cbn [map]; rewrite IH; reflexivity. }
    rewrite E. f_equal. clear E. pose proof tid_row as HT. apply in_split in Hr as (l1 & l2 & El).
    assert (Hne : forall z, In z (l1 ++ l2) -> r_tid z <> r_tid r).
    { intros z Hz Ez. clear HT. rewrite El, map_app in Hnd. cbn [map] in Hnd. apply NoDup_remove_2 in Hnd. apply Hnd. rewrite <- map_app, <- Ez. apply in_map. exact Hz. }
    assert (E0 : forall l, (forall z, In z l -> In z (l1 ++ l2)) -> filter (fun e => tid_eqb (ip (snd e)) (r_tid r)) (filter (fun e => asks q (fst e)) (flat_map (row_pairs addTo) l)) = []).
    { intros l Hl. apply filter_none. intros e He. apply filter_In in He as [He _]. apply in_flat_map in He as (z & Hz & He). apply row_pairs_facts in He as [He _].
      destruct (tid_eqb (ip (snd e)) (r_tid r)) eqn:E; [|reflexivity]. apply tid_eqb_eq in E. exfalso. apply (Hne z (Hl z Hz)). congruence. }
    rewrite El, flat_map_app. cbn [flat_map]. rewrite !filter_app, (E0 l1), (E0 l2); [|intros; apply in_app_iff; auto|intros; apply in_app_iff; auto].
    rewrite app_nil_r. cbn [app]. apply filter_all. intros e He. apply filter_In in He as [He _]. apply tid_eqb_eq. apply (row_pairs_facts r e He).
  Qed.
  Lemma infos_asked q r : In r table -> infos compareFn addTo r q = map add (filter (fun y => tid_eqb (ip y) (r_tid r)) (asked q)).
  Proof. intro Hr. rewrite (asked_row q r Hr). unfold infos. rewrite map_map. reflexivity. Qed.
  (** rows of one column with the same address are at the same place *)
  Lemma same_place q q' y y' : rq_att q = rq_att q' -> In y (asked q) -> In y' (asked q') -> ip y = ip y' -> cmpAt (rq_att q) y y' = 0.
  Proof.
    intros Eq Hy Hy' E. destruct (asked_in q y Hy) as (r & e & Hr & He & Ee & Ha & Et). destruct (asked_in q' y' Hy') as (r' & e' & Hr' & He' & Ee' & Ha' & Et').
    assert (r = r') as -> by (apply tid_row; auto; congruence).
    apply (asks_att compareFn) in Ha, Ha'. apply row_pairs_facts in He as [_ He]. apply row_pairs_facts in He' as [_ He'].
    unfold compareRumItem, altAt. destruct useAlt; cbn [andb]; [|apply cip_eq; exact E]. destruct (N.eqb_spec (rq_att q) addTo) as [Ead|]; cbn [andb]; [|apply cip_eq; exact E].
    assert (add y = add y') as -> by (subst y y'; rewrite He, He' by congruence; reflexivity).
    destruct (add y') as [a|]; [rewrite (tc_refl _ HA); cbn|]; apply cip_eq; exact E.
  Qed.
  Lemma zero_tid alt (y y' : row) : compareRumItem alt cmpA y y' = 0 -> ip y = ip y'.
  Proof.
    unfold compareRumItem. destruct alt; [|apply cip_eq]. destruct (add y), (add y'); try discriminate; [|apply cip_eq].
    destruct (cmpA _ _ =? 0) eqn:E; [apply cip_eq|]. intro H. rewrite H in E. discriminate.
  Qed.
  Lemma shows_sorted q C r : In r table -> Permutation C (asked q) -> ssorted (cmpAt (rq_att q)) C ->
    shows (joinFn (rq_att q)) (infos compareFn addTo r q) (present C (r_tid r)).
  Proof.
    intros Hr P Hs. rewrite (infos_asked q r Hr). unfold present. rewrite find_filter.
    pose proof (Permutation_filter (fun y => tid_eqb (ip y) (r_tid r)) _ _ P) as Pf.
    assert (Hs' : ssorted (cmpAt (rq_att q)) (filter (fun y => tid_eqb (ip y) (r_tid r)) C)).
    { clear - Hs. induction Hs as [|y l _ IH Hall]; [constructor|]. cbn [filter]. destruct (tid_eqb _ _); [|exact IH]. constructor; [exact IH|].
      apply Forall_forall. intros z Hz. apply filter_In in Hz as [Hz _]. rewrite Forall_forall in Hall. auto. }
    unfold row in *. destruct (filter (fun y : item datum => tid_eqb (ip y) (r_tid r)) C) as [|y [|z l]] eqn:E.
    - left. apply Permutation_nil in Pf. rewrite Pf. split; reflexivity.
    - right. exists (add y), []. apply Permutation_length_1_inv in Pf. rewrite Pf. split; [apply Permutation_refl|reflexivity].
    - exfalso. apply ssorted_inv in Hs' as [_ Hall]. inversion Hall as [|? ? Hlt _]; subst.
      assert (H : forall w, In w (y :: z :: l) -> In w (asked q) /\ ip w = r_tid r).
      { intros w Hw. rewrite <- E in Hw. apply filter_In in Hw as [Hw Ew]. split; [eapply Permutation_in; eauto|apply tid_eqb_eq; exact Ew]. }
      destruct (H y) as [H1 H2]; [left; reflexivity|]. destruct (H z) as [H3 H4]; [right; left; reflexivity|].
      rewrite (same_place q q y z eq_refl H1 H3) in Hlt; [lia|congruence].
  Qed.

  Variables (tight c : bool) (ix : @istate K) (G : @ghost (etup K)).
  Hypothesis HI : IInv compareFn altOf attrOf cmpA rawSize tight c ix G.
  Hypothesis Hagree : index_finds compareFn altOf cmpA addTo ix table.
  (** rows that were in the table at some time *)
  Variable ever : list hrow.
  Hypothesis Hever : forall r, In r table -> In r ever.
  Hypothesis Hfrom : keys_from compareFn addTo ix ever.
  Hypothesis Hjunk : forall q, junk_fine compareFn ix q (junk q).

  (** what findEntry has to deliver *)
  Definition entry_good (q : qreq K) (f : found datum) (refind : row -> nat) : Prop :=
    found_ok (cmpAt (rq_att q)) f refind /\ ssorted (cmpAt (rq_att q)) (rows_found (joinFn (rq_att q)) f) /\
    (forall y, In y (rows_found (joinFn (rq_att q)) f) -> exists z, In z (asked q) /\ ip y = ip z /\ cmpAt (rq_att q) y z = 0) /\
    (forall r, In r table -> shows (joinFn (rq_att q)) (infos compareFn addTo r q) (present (rows_found (joinFn (rq_att q)) f) (r_tid r))).

  Lemma entry_exact q : isMany q = false -> exists f refind, findEntry addTo compareFn useAlt cmpA tuplesort junk ix q = Some (f, refind) /\ entry_good q f refind.
  Proof.
    intro Hm. unfold findEntry. rewrite Hm. set (k := mkKey (rq_att q) (rq_key q) (rq_cat q)). set (x := mkTup k (PList [])).
    assert (Hasks : asked q = rows_for compareFn addTo k table).
    { unfold asked, rows_for. f_equal. apply filter_ext. intro e. unfold QuerySpec.asks. unfold isMany in Hm. destruct (rq_partial q); [discriminate|].
      fold k. destruct (rq_cat q); try reflexivity. discriminate. }
    assert (Hgood : forall f refind, found_ok (cmpAt (rq_att q)) f refind -> ssorted (cmpAt (rq_att q)) (rows_found (joinFn (rq_att q)) f) ->
              Permutation (rows_found (joinFn (rq_att q)) f) (asked q) -> entry_good q f refind).
    { intros f refind H1 H2 H3. split; [exact H1|]. split; [exact H2|]. split.
      - intros y Hy. exists y. split; [eapply Permutation_in; eauto|]. split; [reflexivity|]. apply (tc_refl _ (cri_total _ cmpA HA)).
      - intros r Hr. apply shows_sorted; auto. }
    destruct (Hagree k) as (r & Hk & Hr).
    unfold keyRows in Hk. fold x in Hk. destruct (eFindLeaf_spec compareFn altOf attrOf rawSize HK (i_entry ix) G x (X_inv _ _ _ _ _ _ _ _ _ HI)) as (b & stack & pg & Hfl & Hat & Hg & Hx & Hst).
    rewrite Hfl, Hg in *. pose proof (findpage compareFn altOf attrOf cmpA rawSize Hcols tight c ix G k HI b pg x eq_refl Hat Hg Hx) as Hfp.
    destruct (et_find compareFn (p_items pg) x) as [[|] off].
    - destruct Hfp as (t & Hn & Hin & Ek). rewrite Hn in *. destruct (tupleRows ix t) as [R|] eqn:HR; [|discriminate]. injection Hk as <-.
      destruct Hr as (P & Hs). unfold tupleRows in HR. pose proof (X_data _ _ _ _ _ _ _ _ _ HI t Hin) as Hd. unfold data_ok in Hd.
      pose proof (katt_eq compareFn _ _ Ek) as Eatt. cbn [k_att k] in Hs, Eatt.
      destruct (t_data t) as [R'|n] eqn:Hdt.
      + injection HR as ->. eexists _, _. split; [reflexivity|]. apply Hgood; [exact I|cbn [rows_found]; rewrite <- HaltOf; exact Hs|cbn [rows_found]; rewrite Hasks; exact P].
      + destruct Hd as (st & Gt & Hst' & HT & _). rewrite Hst' in *.
        unfold ptScan in HR. assert (HRc : R = contents st Gt).
        { pose proof (scan_spec _ (cri_total (altOf (k_att (t_key t))) cmpA HA) _ _ _ _ _ _ _ _ HT) as Hsc. unfold row in *. rewrite Hsc in HR. injection HR as <-. reflexivity. }
        subst R. destruct (treeFound_junk (altOf (k_att (t_key t))) (attrOf (k_att (t_key t))) cmpA HA tight st Gt (junk q) HT) as (chain & refind & Ef & Ec & Hok).
        { refine (Hjunk q _ t n st _ Hin Ek Hdt Hst'). apply (tuples_spec compareFn altOf attrOf cmpA rawSize Hcols tight c ix G HI). }
        rewrite Eatt, HaltOf in Ef, Hok. rewrite Ef. eexists _, _. split; [reflexivity|]. apply Hgood; [exact Hok|cbn [rows_found]; unfold row in *; rewrite Ec, <- HaltOf; exact Hs|cbn [rows_found]; unfold row in *; rewrite Ec, Hasks; exact P].
    - injection Hk as <-. eexists _, _. split; [reflexivity|]. apply Hgood; [exact I|constructor|]. cbn [rows_found]. rewrite Hasks, Hr. constructor.
  Qed.

  Lemma rowsOf_spec l : (forall t, In t l -> In t (cont ix G)) -> exists Rs, rowsOf ix l = Some Rs /\ Permutation Rs (concat (map (fun t => rows_for compareFn addTo (t_key t) table) l)).
  Proof.
    induction l as [|t l IH]; intro Hin; [exists []; split; [reflexivity|constructor]|]. cbn [rowsOf map concat].
    destruct IH as (Rs & E & P); [intros; apply Hin; right; auto|]. rewrite E.
    assert (Ht : In t (cont ix G)) by (apply Hin; left; reflexivity).
    destruct (Hagree (t_key t)) as (r & Hk & Hr). destruct (keyRows_spec compareFn altOf attrOf cmpA rawSize Hcols tight c ix G (t_key t) HI) as [(t' & R & Hin' & Ek & HR & E')|[Hn _]].
    2: { exfalso. apply (Hn t Ht). apply (tc_refl _ KOK). }
    assert (t' = t) as ->.
    { apply (ssorted_unique (ecmp compareFn) (ecmp_total compareFn HK) (cont ix G)); auto.
      eapply (contents_sorted (ecmp compareFn) (ecmp_total compareFn HK)). exact (X_inv _ _ _ _ _ _ _ _ _ HI). }
    rewrite HR. rewrite Hk in E'. injection E' as ->. destruct Hr as (Pr & _). exists (R ++ Rs). split; [reflexivity|]. apply Permutation_app; assumption.
  Qed.
  Notation tkey q := (table_key compareFn addTo ever (rq_att q)).
  Lemma pair_key q e : In e pairs -> in_key (tkey q) q (fst e).
  Proof. intros He Ea Ec. destruct (pairs_row e He) as (r & Hr & Hi). exists r, e. split; [apply Hever; exact Hr|]. repeat (split; [assumption|]). apply (tc_refl _ (HK _)). Qed.
  Lemma tuple_key q t : In t (cont ix G) -> in_key (tkey q) q (t_key t).
  Proof.
    intros Ht Ea Ec. destruct Hfrom as (tuples & Et & _ & Hf). destruct (tuples_spec compareFn altOf attrOf cmpA rawSize Hcols tight c ix G HI) as [Et' _].
    rewrite Et' in Et. injection Et as <-. destruct (Hf t Ht) as (e & He & E). destruct (keq compareFn _ _ E) as (E1 & E2 & E3). apply in_flat_map in He as (r' & Hr' & Hi).
    exists r', e. split; [exact Hr'|]. split; [exact Hi|]. split; [exact (eq_trans E1 Ea)|]. split; [exact (eq_trans E2 Ec)|]. rewrite <- Ea, <- E1. exact (E3 (eq_trans E2 Ec)).
  Qed.
  Lemma collected_rows q l : partial_ok compareFn (tkey q) q -> l = filter (fun t => asks q (t_key t)) (cont ix G) ->
    exists Rs, rowsOf ix l = Some Rs /\ Permutation Rs (asked q).
  Proof.
    intros Hp ->. destruct (rowsOf_spec (filter (fun t => asks q (t_key t)) (cont ix G))) as (Rs & E & P); [intros t Ht; apply filter_In in Ht as [Ht _]; exact Ht|].
    exists Rs. split; [exact E|]. eapply perm_trans; [exact P|]. clear Rs E P.
    set (Q := filter (fun e => asks q (fst e)) pairs).
    pose proof (classes (fun (t : etup K) (e : ekey K * row) => kcmp (fst e) (t_key t) =? 0) (filter (fun t => asks q (t_key t)) (cont ix G)) Q) as Hc.
    apply (Permutation_map (@snd (ekey K) row)) in Hc.
    - fold (asked q) in Hc. unfold asked. fold Q. eapply perm_trans; [|exact Hc]. rewrite concat_map, map_map.
      apply Permutation_refl'. unfold row in *. f_equal. apply map_ext_in. intros t Ht. apply filter_In in Ht as [Htc Ht]. unfold rows_for. f_equal. unfold Q. rewrite filter_filter.
      apply filter_ext_in. intros e He. destruct (kcmp (fst e) (t_key t) =? 0) eqn:E; [|rewrite andb_false_r; reflexivity]. apply Z.eqb_eq in E.
      rewrite (asks_eq compareFn HK (tkey q) q _ _ Hp (pair_key q e He) (tuple_key q t Htc) E), Ht. reflexivity.
    - intros e He. unfold Q in He. apply filter_In in He as [He Ha].
      destruct (keyRows_spec compareFn altOf attrOf cmpA rawSize Hcols tight c ix G (fst e) HI) as [(t & R & Hin & Ek & HR & E')|[Hn E']].
      + exists t. split.
        * apply filter_In. split; [exact Hin|]. rewrite (asks_eq compareFn HK (tkey q) q _ _ Hp (tuple_key q t Hin) (pair_key q e He) Ek). exact Ha.
        * apply Z.eqb_eq. apply (cmp_sym_eq _ KOK). exact Ek.
      + exfalso. destruct (Hagree (fst e)) as (r & Hk & Hr). rewrite E' in Hk. injection Hk as <-.
        assert (Hin : In (snd e) (rows_for compareFn addTo (fst e) table)).
        { unfold rows_for. apply in_map. apply filter_In. split; [exact He|]. apply Z.eqb_eq. apply (tc_refl _ KOK). }
        rewrite Hr in Hin. destruct Hin.
    - intros l1 t l2 t' l3 e El _ He. apply Z.eqb_eq in He. apply Z.eqb_neq. intro He'.
      assert (Hs : ssorted (ecmp compareFn) (filter (fun t => asks q (t_key t)) (cont ix G))).
      { pose proof (contents_sorted (ecmp compareFn) (ecmp_total compareFn HK) _ _ _ _ _ _ _ _ (X_inv _ _ _ _ _ _ _ _ _ HI)) as Hs. clear - Hs.
        induction Hs as [|y l _ IH Hall]; [constructor|]. cbn [filter]. destruct (asks _ _); [|exact IH]. constructor; [exact IH|].
        apply Forall_forall. intros z Hz. apply filter_In in Hz as [Hz _]. rewrite Forall_forall in Hall. auto. }
      rewrite El in Hs. apply ssorted_app in Hs as (_ & Hs & _). apply ssorted_inv in Hs as [_ Hall]. rewrite Forall_forall in Hall.
      specialize (Hall t' ltac:(apply in_app_iff; right; left; reflexivity)). unfold ecmp in Hall.
      assert (kcmp (t_key t) (t_key t') = 0); [|lia]. pose proof (cmp_eq_l _ KOK _ _ (t_key t') He). apply (cmp_sym_eq _ KOK) in He. lia.
  Qed.

  Lemma tup_total alt : total_cmp (comparetup_rumitem cmpA alt).
  Proof.
    pose proof cip_total as IP. pose proof HA as OK.
    destruct alt; [|constructor; intros; unfold comparetup_rumitem in *;
       [apply (tc_refl _ IP)|apply (tc_anti _ IP)|eapply (tc_trans _ IP); eauto]].
    constructor; unfold comparetup_rumitem.
    - intro x. destruct (add x); [rewrite (tc_refl _ OK); simpl|]; apply (tc_refl _ IP).
    - intros x y. destruct (add x) as [u|], (add y) as [v|]; try lia; try apply (tc_anti _ IP).
      pose proof (tc_anti _ OK u v). pose proof (tc_anti _ OK v u). pose proof (tc_anti _ IP (ip x) (ip y)).
      destruct (Z.eqb_spec (cmpA u v) 0) as [E|E], (Z.eqb_spec (cmpA v u) 0) as [E'|E']; lia.
    - intros x y z. destruct (add x) as [u|], (add y) as [v|], (add z) as [w|]; try lia; try (intros; eapply (tc_trans _ IP); eassumption).
      intros H1 H2. destruct (Z.eqb_spec (cmpA u v) 0) as [E1|E1].
      + pose proof (cmp_eq_l _ OK _ _ w E1). destruct (Z.eqb_spec (cmpA v w) 0) as [E2|E2].
        * replace (cmpA u w =? 0) with true by lia. eapply (tc_trans _ IP); eauto.
        * replace (cmpA u w =? 0) with false by lia. lia.
      + destruct (Z.eqb_spec (cmpA v w) 0) as [E2|E2].
        * assert (cmpA u w < 0) by (eapply (cmp_lt_le_trans _ OK); [|rewrite E2]; lia). replace (cmpA u w =? 0) with false by lia. lia.
        * assert (cmpA u w < 0) by (eapply (cmp_lt_trans _ OK u v w); lia). replace (cmpA u w =? 0) with false by lia. lia.
  Qed.

  (** sorting and joining the rows of several keys *)
  Definition no_null (q : qreq K) : Prop := altAt addTo useAlt (rq_att q) = true -> forall r, In r table -> r_attach r <> None.
  Lemma asked_attach q y r : In y (asked q) -> altAt addTo useAlt (rq_att q) = true -> In r table -> ip y = r_tid r -> add y = r_attach r.
  Proof.
    intros Hy Ha Hr E. destruct (asked_in q y Hy) as (r' & e & Hr' & He & Ee & Has & Et). assert (r' = r) as -> by (apply tid_row; auto; congruence).
    apply (asks_att compareFn) in Has. apply row_pairs_facts in He as [_ He]. subst y. apply He.
    unfold altAt in Ha. apply andb_true_iff in Ha as [_ Ha]. apply N.eqb_eq in Ha. congruence.
  Qed.
  Lemma fold_same f (a : option datum) l : (forall x, a = Some x -> joinAdd f (Some x) (Some x) = Some x) -> Forall (eq a) l -> fold_left (joinAdd f) l a = a.
  Proof.
    intro Hf. induction l as [|b l IH]; intro H; [reflexivity|]. inversion H as [|? ? E Hl]; subst. cbn [fold_left].
    assert (joinAdd f b b = b) as -> by (destruct b as [x|]; [apply Hf; reflexivity|reflexivity]). exact (IH Hl).
  Qed.
  Lemma many_good q Rs refind : no_null q -> Permutation Rs (asked q) ->
    entry_good q (FMany (tuplesort (comparetup_rumitem cmpA (altAt addTo useAlt (rq_att q))) Rs)) refind.
  Proof.
    intros Hnn P. set (alt := altAt addTo useAlt (rq_att q)) in *.
    destruct (Hsort (comparetup_rumitem cmpA alt) Rs (tup_total alt)) as [P2 Hs]. set (T := tuplesort _ Rs) in *.
    assert (PT : Permutation T (asked q)) by (eapply perm_trans; [symmetry; exact P2|exact P]).
    assert (HT : forall y, In y T -> In y (asked q)) by (intros y Hy; eapply Permutation_in; eauto).
    assert (Hcmp : forall a b, In a T -> In b T -> comparetup_rumitem cmpA alt a b = compareRumItem alt cmpA a b).
    { intros a b Ha Hb. unfold comparetup_rumitem, compareRumItem. destruct alt eqn:Ea; [|reflexivity].
      assert (Hx : forall y, In y T -> add y <> None).
      { intros y Hy. destruct (asked_in q y (HT y Hy)) as (r & _ & Hr & _ & _ & _ & Et). rewrite (asked_attach q y r (HT y Hy) Ea Hr Et). apply (Hnn Ea r Hr). }
      specialize (Hx a Ha) as H1. specialize (Hx b Hb) as H2. destruct (add a), (add b); congruence || reflexivity. }
    assert (Hs' : StronglySorted (fun a b => compareRumItem alt cmpA a b <= 0) T).
    { clear - Hs Hcmp. induction Hs as [|y l Hl IH Hall]; [constructor|]. constructor; [apply IH; intros; apply Hcmp; right; auto|].
      rewrite Forall_forall in *. intros z Hz. rewrite <- Hcmp; [auto|left; reflexivity|right; exact Hz]. }
    clear Hs Hcmp P2. unfold entry_good. fold alt. cbn [rows_found found_ok].
    destruct (collapse_groups (joinFn (rq_att q)) T) as (gs & ET & Ec & Hg & Hap). rewrite Ec.
    pose proof (cri_total alt cmpA HA) as CT.
    assert (Hzero : forall a b, In a (concat (map g_all gs)) -> In b (concat (map g_all gs)) -> compareRumItem alt cmpA a b = 0 -> ip a = ip b).
    { intros a b _ _. apply zero_tid. }
    rewrite ET in Hs'. pose proof (groups_sorted (compareRumItem alt cmpA) CT gs Hg Hap Hs' Hzero) as Hss.
    assert (Hin : forall g y, In g gs -> In y (g_all g) -> In y T).
    { intros g y H1 H2. rewrite ET. apply in_concat. exists (g_all g). split; [apply in_map; exact H1|exact H2]. }
    assert (Hsame : forall g g', In g gs -> In g' gs -> ip (fst g) = ip (fst g') -> compareRumItem alt cmpA (fst g) (fst g') = 0).
    { intros g g' H1 H2 E. apply (same_place q q); [reflexivity| | |exact E]; apply HT; [apply (Hin g)|apply (Hin g')]; auto; left; reflexivity. }
    assert (Hjo : forall g, In g gs -> compareRumItem alt cmpA (joined (joinFn (rq_att q)) g) (fst g) = 0).
    { intros g H1. unfold compareRumItem. destruct alt eqn:Ea; [|apply cip_eq; reflexivity].
      destruct (asked_in q (fst g)) as (r & _ & Hr & _ & _ & _ & Et); [apply HT; apply (Hin g); [exact H1|left; reflexivity]|].
      assert (E : add (joined (joinFn (rq_att q)) g) = add (fst g)).
      { unfold joined. cbn [add]. apply fold_same.
        - intros x _. cbn [joinAdd]. destruct (joinFn (rq_att q)) as [f|] eqn:Ef; [|reflexivity]. f_equal.
          unfold alt, altAt in Ea. apply andb_true_iff in Ea as [Eu En]. apply N.eqb_eq in En. rewrite En in Ef. apply (Hidem Eu f x Ef).
        - apply Forall_map. apply Forall_forall. intros y Hy. rewrite Forall_forall in Hg. specialize (Hg g H1). rewrite Forall_forall in Hg. specialize (Hg y Hy).
          rewrite (asked_attach q (fst g) r); auto; [|apply HT; apply (Hin g); [exact H1|left; reflexivity]].
          symmetry. apply (asked_attach q y r); auto; [|congruence]. apply HT. apply (Hin g); [exact H1|right; exact Hy]. }
      rewrite E. destruct (add (fst g)) as [x|]; [rewrite (tc_refl _ HA); cbn|]; apply cip_eq; reflexivity. }
    split; [exact I|]. split; [|split].
    - clear - Hss Hjo CT. induction gs as [|g gs IH]; [constructor|]. cbn [map] in *. apply ssorted_inv in Hss as [Hs Hall].
      apply ssorted_cons; [apply IH; auto; intros; apply Hjo; right; auto|]. rewrite Forall_map, Forall_forall in *. intros g' Hg'. specialize (Hall g' Hg').
      pose proof (cmp_eq_l _ CT _ _ (joined (joinFn (rq_att q)) g') (Hjo g (or_introl eq_refl))) as E1.
      assert (compareRumItem alt cmpA (fst g) (joined (joinFn (rq_att q)) g') < 0); [|lia].
      eapply (cmp_lt_le_trans _ CT); [exact Hall|]. pose proof (cmp_sym_eq _ CT _ _ (Hjo g' (or_intror Hg'))). lia.
    - intros y Hy. apply in_map_iff in Hy as (g & <- & H1). exists (fst g). split; [apply HT; apply (Hin g); [exact H1|left; reflexivity]|].
      split; [reflexivity|]. apply Hjo. exact H1.
    - intros r Hr. rewrite (infos_asked q r Hr). unfold present.
      pose proof (groups_tid (joinFn (rq_att q)) (compareRumItem alt cmpA) gs (r_tid r) Hg Hss Hsame) as Hgt. rewrite <- ET in Hgt.
      pose proof (Permutation_filter (fun y => tid_eqb (ip y) (r_tid r)) _ _ PT) as Pf.
      unfold row in *. destruct (find (fun y => tid_eqb (ip y) (r_tid r)) (map (joined (joinFn (rq_att q))) gs)) as [y|].
      + destruct Hgt as (g & _ & -> & E). rewrite E in Pf. right. exists (add (fst g)), (map add (snd g)). split; [|reflexivity].
        apply (Permutation_map add) in Pf. symmetry. exact Pf.
      + rewrite Hgt in Pf. apply Permutation_nil in Pf. rewrite Pf. left. split; reflexivity.
  Qed.

  Lemma entry_many q : isMany q = true -> partial_ok compareFn (tkey q) q -> no_null q ->
    exists f refind, findEntry addTo compareFn useAlt cmpA tuplesort junk ix q = Some (f, refind) /\ entry_good q f refind.
  Proof.
    intros Hm Hp Hnn. unfold findEntry. rewrite Hm. set (k := mkKey (rq_att q) (rq_key q) (rq_cat q)).
    assert (Hgo : (rq_partial q <> None -> rq_cat q = CatNormKey) ->
      exists f refind, match tuplesFrom compareFn ix k with
          | None => None
          | Some l => match rowsOf ix (collectMatch q l) with
                      | None => None
                      | Some rows => Some (FMany (tuplesort (comparetup_rumitem cmpA (altAt addTo useAlt (rq_att q))) rows), fun _ : row => O)
                      end end = Some (f, refind) /\ entry_good q f refind).
    { intro Hn. destruct (tuplesFrom_spec compareFn altOf attrOf rawSize HK ix G k (X_inv _ _ _ _ _ _ _ _ _ HI)) as (pre & suf & Ec & Et & Hpre & Hsuf). rewrite Et.
      destruct (tuples_spec compareFn altOf attrOf cmpA rawSize Hcols tight c ix G HI) as [_ Hs]. rewrite Ec, map_app in Hs. apply ssorted_app in Hs as (_ & Hs & _).
      destruct (collected_rows q (collectMatch q suf) Hp) as (Rs & ER & P).
      { assert (Hik : forall t, In t (pre ++ suf) -> in_key (tkey q) q (t_key t)) by (intros t Ht; apply tuple_key; rewrite Ec; exact Ht).
        rewrite (collect_suffix compareFn (tkey q) q suf Hm Hn Hp ltac:(intros; apply Hik; apply in_app_iff; right; assumption) Hs Hsuf).
        rewrite Ec, filter_app, (collect_prefix compareFn HK (tkey q) q pre Hm Hn Hp ltac:(intros; apply Hik; apply in_app_iff; left; assumption) Hpre). reflexivity. }
      rewrite ER. eexists _, _. split; [reflexivity|]. apply many_good; assumption. }
    destruct (rq_partial q) as [f|] eqn:Ef; [|apply Hgo; congruence].
    assert (Hno : rq_cat q <> CatNormKey -> asked q = []).
    { intro Hc. unfold asked. rewrite filter_none; [reflexivity|]. intros e _. unfold QuerySpec.asks. rewrite Ef.
      destruct (Z.eqb_spec (cat_code (rq_cat q)) 0) as [E|]; [exfalso; apply Hc, (cat_norm _ E)|]. rewrite andb_false_r. reflexivity. }
    assert (Hemp : rq_cat q <> CatNormKey -> exists f refind, Some (@FMany datum [], fun _ : row => O) = Some (f, refind) /\ entry_good q f refind).
    { intro Hc. eexists _, _. split; [reflexivity|]. split; [exact I|]. split; [constructor|]. split; [intros y []|]. intros r Hr.
      rewrite (infos_asked q r Hr), (Hno Hc). left. split; reflexivity. }
    destruct (rq_cat q) eqn:Eq; try (apply Hemp; discriminate). apply Hgo. reflexivity.
  Qed.
  Theorem entry_shows q : partial_ok compareFn (tkey q) q -> (isMany q = true -> no_null q) ->
    exists f refind, findEntry addTo compareFn useAlt cmpA tuplesort junk ix q = Some (f, refind) /\ entry_good q f refind.
  Proof. intros Hp Hn. destruct (isMany q) eqn:Hm; [apply entry_many; auto|apply entry_exact; exact Hm]. Qed.
End Found.
