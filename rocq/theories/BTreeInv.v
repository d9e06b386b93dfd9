(** Invariant of the trees of BTree.v and its basic consequences.  Proof file. *)
From Verif Require Import Ord BTree.
From Coq Require Import List ZArith Bool Arith Lia.
Import ListNotations.

(** ** bounds with infinities *)
Inductive bnd (T : Type) := BMin | BAt (t : T) | BMax.
Arguments BMin {T}. Arguments BAt {T}. Arguments BMax {T}.

Definition bcmp {T} (cmp : T -> T -> Z) (a b : bnd T) : Z :=
  match a, b with
  | BMin, BMin => 0
  | BMin, _ => -1
  | _, BMin => 1
  | BAt x, BAt y => cmp x y
  | BAt _, BMax => -1
  | BMax, BAt _ => 1
  | BMax, BMax => 0
  end.

Lemma bcmp_total {T} (cmp : T -> T -> Z) : total_cmp cmp -> total_cmp (bcmp cmp).
Proof.
  intro OK. constructor.
  - intros [|x|]; simpl; try lia. apply (tc_refl _ OK).
  - intros [|x|] [|y|]; simpl; try lia. apply (tc_anti _ OK).
  - intros [|x|] [|y|] [|z|]; simpl; try lia. apply (tc_trans _ OK).
Qed.

(** ** list update *)
Lemma upd_length {A} (l : list A) n x : length (upd l n x) = length l.
Proof. revert n. induction l as [|a l IH]; intros [|n]; simpl; auto. Qed.
Lemma nth_upd_same {A} (l : list A) n x : n < length l -> nth_error (upd l n x) n = Some x.
Proof. revert n. induction l as [|a l IH]; intros [|n] H; simpl in *; try lia; auto. apply IH. lia. Qed.
Lemma nth_upd_other {A} (l : list A) n m x : n <> m -> nth_error (upd l n x) m = nth_error l m.
Proof. revert n m. induction l as [|a l IH]; intros [|n] [|m] H; simpl in *; try lia; auto. Qed.

Lemma nth_some_lt {A} (l : list A) n x : nth_error l n = Some x -> n < length l.
Proof. intro H. apply nth_error_Some. congruence. Qed.

Lemma nodup_app {A} (l1 l2 : list A) : NoDup (l1 ++ l2) <->
  NoDup l1 /\ NoDup l2 /\ (forall x, In x l1 -> In x l2 -> False).
Proof.
  induction l1 as [|a l1 IH]; simpl.
  - split; [intro H; repeat split; auto; constructor|tauto].
  - split.
    + intro N. inversion N as [|? ? Hn Hr]; subst. apply IH in Hr as (N1 & N2 & D). rewrite in_app_iff in Hn.
      repeat split; auto; [constructor; tauto|]. intros x [->|H1] H2; [tauto|eauto].
    + intros (N1 & N2 & D). inversion N1 as [|? ? Hn Hr]; subst. constructor.
      * rewrite in_app_iff. intros [H|H]; [tauto|]. apply (D a); auto.
      * apply IH. repeat split; auto. intros x H1 H2. apply (D x); auto.
Qed.

Section Inv.
  Context {T : Type}.
  Variable cmp : T -> T -> Z.
  Hypothesis OK : total_cmp cmp.
  (** downlink lists that fit a page *)
  Variable ifit : list (T * nat) -> Prop.
  (** the last downlink key bounds the page (entry tree, where the bound is that key) *)
  Variable lbound : bool.
  (** rows the page functions accept; leaf contents that fit a page *)
  Variable ok : T -> Prop.
  Variable fit : list T -> Prop.

  Notation page := (page T).
  Notation store := (list page).
  Notation bcmp := (bcmp cmp).
  Definition ble (a b : bnd T) : Prop := (bcmp a b <= 0)%Z.
  Definition blt (a b : bnd T) : Prop := (bcmp a b < 0)%Z.
  Notation BOK := (bcmp_total cmp OK).

  Lemma ble_refl a : ble a a.
  Proof. unfold ble. rewrite (tc_refl _ BOK). lia. Qed.
  Lemma ble_trans a b c : ble a b -> ble b c -> ble a c.
  Proof. apply (tc_trans _ BOK). Qed.
  Lemma blt_ble a b : blt a b -> ble a b.
  Proof. unfold ble, blt. lia. Qed.
  Lemma blt_le_trans a b c : blt a b -> ble b c -> blt a c.
  Proof. apply (cmp_lt_le_trans _ BOK). Qed.
  Lemma ble_lt_trans a b c : ble a b -> blt b c -> blt a c.
  Proof. apply (cmp_le_lt_trans _ BOK). Qed.
  Lemma blt_irrefl a : ~ blt a a.
  Proof. unfold blt. rewrite (tc_refl _ BOK). lia. Qed.
  Lemma ble_nlt a b : ble a b -> blt b a -> False.
  Proof. intros H1 H2. exact (blt_irrefl _ (ble_lt_trans _ _ _ H1 H2)). Qed.
  Lemma nblt a b : ~ blt a b -> ble b a.
  Proof. intro H. unfold blt, ble in *. apply (cmp_ge_le _ BOK). lia. Qed.
  Lemma ble_min a : ble BMin a.
  Proof. unfold ble. destruct a; simpl; lia. Qed.
  Lemma ble_max a : ble a BMax.
  Proof. unfold ble. destruct a; simpl; lia. Qed.
  Lemma ble_min_eq a : ble a BMin -> a = BMin.
  Proof. unfold ble. destruct a; simpl; try lia; auto. Qed.
  Lemma bat_le x y : ble (BAt x) (BAt y) <-> (cmp x y <= 0)%Z.
  Proof. unfold ble. simpl. lia. Qed.
  Lemma bat_lt x y : blt (BAt x) (BAt y) <-> (cmp x y < 0)%Z.
  Proof. unfold blt. simpl. lia. Qed.
  Local Hint Resolve ble_refl ble_min ble_max blt_ble : core.

  (** ** ghost state: levels (leaf level first), subtree bounds of every block *)
  Record ghost := mkG { lv : list (list nat); slo : nat -> bnd T; shi : nat -> bnd T }.

  Definition at_ (G : ghost) (h b : nat) : Prop :=
    exists L, nth_error (lv G) h = Some L /\ In b L.

  (** doubly linked level *)
  Fixpoint links (st : store) (prv : option nat) (L : list nat) : Prop :=
    match L with
    | [] => True
    | b :: L' => exists pg, get st b = Some pg /\ p_left pg = prv /\ p_right pg = hd_error L'
                            /\ links st (Some b) L'
    end.

  Definition in_range (lo hi : bnd T) (x : T) : Prop := blt lo (BAt x) /\ ble (BAt x) hi.

  Definition hi_of (pg : page) : bnd T :=
    match p_right pg with None => BMax | Some _ => BAt (p_bound pg) end.

  (** upper end [z] of a child under downlink key [k], followed by downlinks [d']; [nr]: the
      page has a right neighbour; [lim]: the page's own upper end *)
  Definition slot_ok (slo : nat -> bnd T) (nr : bool) (lim : bnd T) (k : T) (d' : list (T * nat)) (z : bnd T) : Prop :=
    match d' with
    | [] => ble z lim /\ (nr = true -> ble z (BAt k))
    | (_, c') :: _ => ble z (slo c') /\ ble (slo c') (BAt k)
    end.
  (** downlinks of a page: children's ranges in order, keys not below the next child's range *)
  Fixpoint dok (slo shi : nat -> bnd T) (nr : bool) (lim : bnd T) (d : list (T * nat)) : Prop :=
    match d with
    | [] => True
    | (k, c) :: d' => slot_ok slo nr lim k d' (shi c) /\ dok slo shi nr lim d'
    end.

  (** [lo], [hi]: the range of the page *)
  Definition leaf_body (tight : bool) (lo hi : bnd T) (pg : page) : Prop :=
    hi = hi_of pg /\ p_downs pg = [] /\
    ssorted cmp (p_items pg) /\ Forall ok (p_items pg) /\ fit (p_items pg) /\
    (forall x, In x (p_items pg) -> in_range lo hi x) /\
    (tight = true \/ lbound = true -> p_right pg <> None ->
       forall x, in_range lo hi x -> exists y, In y (p_items pg) /\ (cmp x y <= 0)%Z).

  Definition int_body (G : ghost) (h : nat) (lo hi : bnd T) (pg : page) : Prop :=
    p_items pg = [] /\ ifit (p_downs pg) /\
    Forall (fun kc => at_ G h (snd kc)) (p_downs pg) /\
    dok (slo G) (shi G) (negb (rightmost pg)) hi (p_downs pg) /\
    (lbound = true -> p_right pg <> None ->
       forall d k c, p_downs pg = d ++ [(k, c)] -> cmp (p_bound pg) k = 0%Z) /\
    exists kc d, p_downs pg = kc :: d /\ lo = slo G (snd kc).

  Definition body (tight : bool) (G : ghost) (h : nat) (lo hi : bnd T) (pg : page) : Prop :=
    match h with O => leaf_body tight lo hi pg | S h' => int_body G h' lo hi pg end.

  Definition page_ok (tight : bool) (st : store) (G : ghost) (h b : nat) : Prop :=
    exists pg, get st b = Some pg /\ p_leaf pg = (h =? 0) /\ p_deleted pg = false /\
      blt (slo G b) (shi G b) /\
      (p_left pg = None -> slo G b = BMin) /\
      (forall b', p_right pg = Some b' ->
         ble (shi G b) (slo G b') /\ ble (slo G b') (BAt (p_bound pg)) /\
         (h = 0 -> slo G b' = BAt (p_bound pg))) /\
      body tight G h (slo G b) (shi G b) pg.

  Record Inv (tight : bool) (st : store) (root : nat) (G : ghost) : Prop := {
    I_top : exists X, lv G = X ++ [[root]];
    I_nodup : NoDup (concat (lv G));
    I_links : forall h L, nth_error (lv G) h = Some L -> links st None L;
    I_page : forall h b, at_ G h b -> page_ok tight st G h b }.

  (** every page but [except] has a downlink one level up *)
  Definition complete_but (st : store) (root : nat) (G : ghost) (except : nat -> Prop) : Prop :=
    forall h b, at_ G h b -> b <> root -> ~ except b ->
    exists p pg k, at_ G (S h) p /\ get st p = Some pg /\ In (k, b) (p_downs pg).
  Definition complete st root G := complete_but st root G (fun _ => False).

  (** rows stored, in leaf order *)
  Definition items_at (st : store) (b : nat) : list T :=
    match get st b with Some pg => p_items pg | None => [] end.
  Definition contents (st : store) (G : ghost) : list T :=
    match lv G with [] => [] | L :: _ => flat_map (items_at st) L end.

  (** ** basic facts *)
  Section Facts.
    Context (tight : bool) (st : store) (root : nat) (G : ghost).
    Hypothesis HI : Inv tight st root G.

    Lemma lv_nonempty : lv G <> [].
    Proof. destruct (I_top _ _ _ _ HI) as [X H]. rewrite H. destruct X; discriminate. Qed.

    Definition top : nat := length (lv G) - 1.
    Lemma top_root : nth_error (lv G) top = Some [root].
    Proof.
      destruct (I_top _ _ _ _ HI) as [X H]. unfold top. rewrite H, app_length. simpl.
      rewrite nth_error_app2 by lia. replace (length X + 1 - 1 - length X) with 0 by lia. reflexivity.
    Qed.
    Lemma at_root : at_ G top root.
    Proof. exists [root]. split; [apply top_root|left; reflexivity]. Qed.
    Lemma at_lt h b : at_ G h b -> h < length (lv G).
    Proof. intros (L & H & _). eapply nth_some_lt; eauto. Qed.
    Lemma at_le_top h b : at_ G h b -> h <= top.
    Proof. intro H. apply at_lt in H. unfold top. lia. Qed.
    Lemma at_top b : at_ G top b -> b = root.
    Proof. intros (L & H & Hb). rewrite top_root in H. injection H as <-. destruct Hb as [<-|[]]. reflexivity. Qed.

    Lemma nth_concat (l : list (list nat)) h L b : nth_error l h = Some L -> In b L -> In b (concat l).
    Proof. intros H Hb. apply in_concat. exists L. split; [|exact Hb]. eapply nth_error_In; eauto. Qed.

    Lemma level_nodup h L : nth_error (lv G) h = Some L -> NoDup L.
    Proof.
      intro H. apply nth_error_split in H as (l1 & l2 & E & _).
      pose proof (I_nodup _ _ _ _ HI) as N. rewrite E, concat_app in N. simpl in N.
      apply nodup_app in N as (_ & N & _). apply nodup_app in N as (N & _ & _). exact N.
    Qed.
    Lemma at_inj h h' b : at_ G h b -> at_ G h' b -> h = h'.
    Proof.
      assert (K : forall h h' L L' b, h < h' -> nth_error (lv G) h = Some L -> nth_error (lv G) h' = Some L' ->
        In b L -> In b L' -> False).
      { clear h h' b. intros h h' L L' b Hlt H H' Hb Hb'.
        apply nth_error_split in H as (l1 & l2 & E & El).
        pose proof (I_nodup _ _ _ _ HI) as N. rewrite E in H', N.
        rewrite concat_app in N. simpl in N. apply nodup_app in N as (_ & N & _).
        rewrite nth_error_app2 in H' by lia. destruct (h' - length l1) as [|k] eqn:Ek; [lia|].
        simpl in H'. apply nodup_app in N as (_ & _ & N). eapply N; [exact Hb|]. eapply nth_concat; eauto. }
      intros (L & H & Hb) (L' & H' & Hb'). destruct (Nat.lt_trichotomy h h') as [Hlt|[E|Hlt]]; auto.
      - exfalso. eapply K; eauto.
      - exfalso. eapply K; eauto.
    Qed.
    Lemma at_not_root h b : at_ G h b -> h < top -> b <> root.
    Proof. intros H Hlt ->. pose proof (at_inj _ _ _ H at_root). lia. Qed.
    Lemma at_root_top h : at_ G h root -> h = top.
    Proof. intro H. exact (at_inj _ _ _ H at_root). Qed.

    Lemma at_valid h b : at_ G h b -> b < length st.
    Proof. intro H. destruct (I_page _ _ _ _ HI _ _ H) as (pg & Hg & _). eapply nth_some_lt; eauto. Qed.

    (** links give the neighbours *)
    Lemma links_at prv L1 b L2 : links st prv (L1 ++ b :: L2) ->
      exists pg, get st b = Some pg /\ p_right pg = hd_error L2 /\
        p_left pg = match L1 with [] => prv | _ => Some (last L1 0) end.
    Proof.
      revert prv. induction L1 as [|a L1 IH]; intros prv H; cbn [app links] in H.
      - destruct H as (pg & Hg & Hl & Hr & _). exists pg. auto.
      - destruct H as (pg & Hg & Hl & Hr & H). apply IH in H as (pg' & Hg' & Hr' & Hl').
        exists pg'. repeat split; auto. rewrite Hl'. destruct L1; reflexivity.
    Qed.

    Lemma at_split h b : at_ G h b -> exists L1 L2, nth_error (lv G) h = Some (L1 ++ b :: L2).
    Proof. intros (L & H & Hb). apply in_split in Hb as (L1 & L2 & ->). eauto. Qed.

    (** the right neighbour is on the same level *)
    Lemma right_at h b pg b' : at_ G h b -> get st b = Some pg -> p_right pg = Some b' -> at_ G h b'.
    Proof.
      intros Hat Hg Hr. destruct (at_split _ _ Hat) as (L1 & L2 & HL).
      pose proof (I_links _ _ _ _ HI _ _ HL) as Hln. apply links_at in Hln as (pg' & Hg' & Hr' & _).
      rewrite Hg in Hg'. injection Hg' as <-. rewrite Hr in Hr'. destruct L2 as [|c L2]; [discriminate|].
      simpl in Hr'. injection Hr' as ->. eexists. split; [exact HL|]. apply in_app_iff. right. right. left. reflexivity.
    Qed.

    Lemma root_right : forall pg, get st root = Some pg -> p_right pg = None /\ p_left pg = None.
    Proof.
      intros pg Hg. pose proof (I_links _ _ _ _ HI _ _ top_root) as (pg' & Hg' & Hl & Hr & _).
      rewrite Hg in Hg'. injection Hg' as <-. auto.
    Qed.
    Lemma root_slo : slo G root = BMin.
    Proof.
      destruct (I_page _ _ _ _ HI _ _ at_root) as (pg & Hg & _ & _ & _ & Hs & _).
      apply Hs. apply root_right. exact Hg.
    Qed.
    Lemma first_slo h b L : nth_error (lv G) h = Some (b :: L) -> slo G b = BMin.
    Proof.
      intro H. pose proof (I_links _ _ _ _ HI _ _ H) as (pg & Hg & Hl & _).
      assert (Hat : at_ G h b) by (exists (b :: L); split; [exact H|left; reflexivity]).
      destruct (I_page _ _ _ _ HI _ _ Hat) as (pg' & Hg' & _ & _ & _ & Hs & _).
      rewrite Hg in Hg'. injection Hg' as <-. auto.
    Qed.

    (** total number of pages bounds levels *)
    Lemma NoDup_bound (l : list nat) n : NoDup l -> (forall x, In x l -> x < n) -> length l <= n.
    Proof.
      intros N H. rewrite <- (seq_length n 0). apply NoDup_incl_length; [exact N|].
      intros x Hx. apply in_seq. specialize (H x Hx). lia.
    Qed.
    Lemma concat_bound : length (concat (lv G)) <= length st.
    Proof.
      apply NoDup_bound; [apply (I_nodup _ _ _ _ HI)|]. intros x Hx. apply in_concat in Hx as (L & HL & Hx).
      apply In_nth_error in HL as [h HL]. apply (at_valid h). exists L. auto.
    Qed.
    Lemma concat_firstn_le (l : list (list nat)) n : length (concat (firstn n l)) <= length (concat l).
    Proof.
      rewrite <- (firstn_skipn n l) at 2. rewrite concat_app, app_length. lia.
    Qed.
  End Facts.

  (** ** downlink lists *)
  Lemma dok_app slo shi nr lim d0 k1 c1 k c d2 :
    dok slo shi nr lim (d0 ++ (k1, c1) :: (k, c) :: d2) <->
    dok slo shi true (slo c) (d0 ++ [(k1, c1)]) /\ ble (slo c) (BAt k1) /\ dok slo shi nr lim ((k, c) :: d2).
  Proof using OK.
    clear ok fit ifit. induction d0 as [|[k0 c0] d0 IH].
    - cbn [app dok slot_ok]. split; [|tauto]. intros ((A & B) & C). repeat split; try tauto.
      intros _. eapply ble_trans; eauto.
    - destruct d0 as [|[k' c'] d0].
      + cbn [app dok slot_ok] in *. tauto.
      + cbn [app] in *. cbn [dok slot_ok] in *. tauto.
  Qed.

  Lemma slot_mono slo nr lim k d z z' : ble z z' -> slot_ok slo nr lim k d z' -> slot_ok slo nr lim k d z.
  Proof using OK.
    intros Hz. unfold slot_ok. destruct d as [|[k' c'] d]; intros (A & B); split; auto.
    - eapply ble_trans; eauto.
    - intro E. eapply ble_trans; eauto.
    - eapply ble_trans; eauto.
  Qed.
  Lemma slot_key slo nr lim k d z : slot_ok slo nr lim k d z -> (d <> [] \/ nr = true) -> ble z (BAt k).
  Proof using OK.
    unfold slot_ok. destruct d as [|[k' c'] d]; intros (A & B) H; [destruct H; [congruence|auto]|].
    eapply ble_trans; eauto.
  Qed.

  Lemma dok_lim_mono slo shi nr lim lim' d : ble lim lim' -> dok slo shi nr lim d -> dok slo shi nr lim' d.
  Proof using OK.
    intro Hl. induction d as [|[k c] d IH]; [auto|]. cbn [dok]. intros (A & B). split; [|auto].
    unfold slot_ok in *. destruct d as [|[k' c'] d]; [|exact A]. destruct A as [A A']. split; auto. eapply ble_trans; eauto.
  Qed.

  (** changing ghost bounds: lower ends kept, upper ends not raised *)
  Lemma dok_ext slo shi slo' shi' nr lim d :
    (forall kc, In kc d -> slo' (snd kc) = slo (snd kc) /\ ble (shi' (snd kc)) (shi (snd kc))) ->
    dok slo shi nr lim d -> dok slo' shi' nr lim d.
  Proof using OK.
    induction d as [|[k c] d IH]; [auto|]. intros He (Hs & Hd). cbn [dok]. split.
    - apply slot_mono with (z' := shi c); [apply (He (k, c)); left; reflexivity|].
      unfold slot_ok in *. destruct d as [|[k' c'] d]; [exact Hs|].
      destruct (He (k', c') (or_intror (or_introl eq_refl))) as [E _]. simpl in E. rewrite E. exact Hs.
    - apply IH; auto. intros kc Hk. apply He. right; exact Hk.
  Qed.

  Lemma dok_at slo shi nr lim d1 k c d2 : dok slo shi nr lim (d1 ++ (k, c) :: d2) ->
    slot_ok slo nr lim k d2 (shi c) /\ dok slo shi nr lim d2.
  Proof using OK.
    induction d1 as [|[k1 c1] d1 IH]; [cbn [app dok]; auto|]. cbn [app dok]. intros [_ H]. auto.
  Qed.

  (** the downlinks after a child split *)
  Lemma dok_place slo shi nr lim d1 k0 c d2 k r :
    dok slo shi nr lim (d1 ++ (k0, c) :: d2) ->
    ble (shi c) (slo r) -> ble (slo r) (BAt k) -> slot_ok slo nr lim k0 d2 (shi r) ->
    dok slo shi nr lim (d1 ++ (k, c) :: (k0, r) :: d2).
  Proof using OK.
    intros Hd H1 H2 H3.
    assert (Htail : dok slo shi nr lim ((k0, c) :: d2) -> dok slo shi nr lim ((k, c) :: (k0, r) :: d2)).
    { intros [_ Ht]. cbn [dok slot_ok]. auto. }
    destruct d1 as [|[k1 c1] d1 _] using rev_ind.
    - cbn [app] in *. auto.
    - rewrite <- !app_assoc in *. cbn [app] in *. apply dok_app in Hd as (A & B & C).
      apply dok_app. split; [exact A|]. split; [exact B|]. auto.
  Qed.

  (** in a correct downlink list the bounds of the children ascend *)
  Lemma dok_slo_le slo shi nr lim d k c : (forall kc, In kc ((k, c) :: d) -> blt (slo (snd kc)) (shi (snd kc))) ->
    dok slo shi nr lim ((k, c) :: d) -> forall kc, In kc d -> ble (shi c) (slo (snd kc)).
  Proof using OK.
    revert k c. induction d as [|[k' c'] d IH]; intros k c Hs Hd kc Hin; [destruct Hin|].
    destruct Hd as ((H1 & H2) & H3). destruct Hin as [<-|Hin]; [exact H1|].
    eapply ble_trans; [exact H1|]. eapply ble_trans; [apply blt_ble; apply (Hs (k', c')); right; left; reflexivity|].
    apply (IH k' c'); auto. intros kc' Hk. apply Hs. right; exact Hk.
  Qed.
  Lemma dok_key_gt slo shi nr lim d1 k c d2 :
    dok slo shi nr lim (d1 ++ (k, c) :: d2) -> blt (slo c) (shi c) -> (d2 <> [] \/ nr = true) -> blt (slo c) (BAt k).
  Proof using OK.
    intros Hd Hs Hn. apply dok_at in Hd as [Hk _]. eapply blt_le_trans; [exact Hs|]. eapply slot_key; eauto.
  Qed.
  (** a child past the first starts at or below the preceding key *)
  Lemma dok_prev_key slo shi nr lim d1 k c k' c' d2 :
    dok slo shi nr lim (d1 ++ (k, c) :: (k', c') :: d2) -> ble (slo c') (BAt k).
  Proof using OK. intro Hd. apply dok_app in Hd. destruct Hd as (_ & H & _). exact H. Qed.
End Inv.
