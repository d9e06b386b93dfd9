(** Insertion into a tree: keeps the invariant at every logged change, never loses its path on a
    complete tree, stores every row of the batch and keeps every row there was. *)
From Verif Require Import Ord BTree BTreeInv BTreeFind BTreeParent BTreeSplit BTreeRoot.
From Coq Require Import List ZArith Bool Arith Lia.
Import ListNotations.

Lemma last_cons_eq {A} (l : list A) : forall x d, last (x :: l) d = last l x.
Proof. induction l as [|y l IH]; intros x d; [reflexivity|]. change (last (x :: y :: l) d) with (last (y :: l) d). rewrite !IH. reflexivity. Qed.

Lemma in_rev_last {A} (a : A) l d : In (last (a :: l) d) (a :: l).
Proof.
  revert a. induction l as [|b l IH]; intro a; [left; reflexivity|].
  change (last (a :: b :: l) d) with (last (b :: l) d). right. apply IH.
Qed.

Section Ins.
  Context {T : Type}.
  Variable cmp : T -> T -> Z.
  Hypothesis OK : total_cmp cmp.
  Variable ifit : list (T * nat) -> Prop.
  Variable lbound : bool.
  Variable ok : T -> Prop.
  Variable fit : list T -> Prop.
  (** keys that may stand in a downlink *)
  Variable kok : T -> Prop.
  Variable rbound : page T -> T.
  Variable tnull : T.
  Variable ienough : list (T * nat) -> T -> bool.
  Variable locate : bool -> list (T * nat) -> T -> nat.
  Variable leafFind : list T -> T -> bool * nat.
  Variable leafEnough : list T -> T -> bool.
  Variable leafPlace : bool -> T -> list T -> list T -> option (list T * list T).
  Variable leafSplit : list T -> list T -> nat -> option (list T * list T * list T).
  Variable isep : bool -> list (T * nat) -> nat.
  Variable rkey : T -> list T -> list (T * nat) -> T.
  (** batches of more than one row allowed *)
  Variable multi : bool.

  Definition placed (d1 : list (T * nat)) (k0 : T) (c : nat) (d2 : list (T * nat)) (k : T) (r : nat) :=
    d1 ++ (k, c) :: (k0, r) :: d2.
  Definition ienough_ok : Prop := forall d1 k0 c d2 k r, kok k ->
    ifit (d1 ++ (k0, c) :: d2) -> ienough (d1 ++ (k0, c) :: d2) k = true -> ifit (placed d1 k0 c d2 k r).
  Definition isep_ok : Prop := forall rm d1 k0 c d2 k r, kok k ->
    ifit (d1 ++ (k0, c) :: d2) -> ienough (d1 ++ (k0, c) :: d2) k = false ->
    let d := placed d1 k0 c d2 k r in
    1 <= isep rm d < length d /\ ifit (firstn (isep rm d) d) /\ ifit (skipn (isep rm d) d).
  Definition iroot_ok : Prop := forall k l k' r, kok k -> kok k' -> ifit [(k, l); (k', r)].
  Definition kok_ok : Prop := (forall x, ok x -> kok x) /\ (forall d kc, ifit d -> In kc d -> kok (fst kc)) /\
    (forall b items d, (items <> [] /\ Forall ok items) \/ (items = [] /\ d <> [] /\ ifit d) -> kok (rkey b items d)).

  (** placeToPage on a leaf with room: takes a non-empty front part of the batch. *)
  Definition leafPlace_ok : Prop := forall rm bound items x tl, (multi = true \/ tl = []) ->
    ssorted cmp items -> Forall ok items -> fit items -> ssorted cmp (x :: tl) -> Forall ok (x :: tl) ->
    (forall y, In y items -> cmp y x <> 0%Z) -> (rm = true \/ forall y, In y (x :: items) -> (cmp y bound <= 0)%Z) ->
    leafEnough items x = true ->
    exists items' used added rest,
      leafPlace rm bound items (x :: tl) = Some (items', rest) /\ x :: tl = used ++ rest /\ used <> [] /\
      ssorted cmp items' /\ Forall ok items' /\ fit items' /\
      (forall y, In y items' <-> In y items \/ In y added) /\
      (forall y, In y added -> In y used /\ (rm = true \/ (cmp y bound <= 0)%Z)) /\
      (forall y, In y used -> In y added \/ exists o, In o items /\ cmp o y = 0%Z).
  (** splitPage on a full leaf: both halves non-empty; more than one row of the batch is taken
      only when they all go after the last row of the page. *)
  Definition leafSplit_ok : Prop := forall items x tl, (multi = true \/ tl = []) ->
    ssorted cmp items -> Forall ok items -> fit items -> ssorted cmp (x :: tl) -> Forall ok (x :: tl) ->
    (forall y, In y items -> cmp y x <> 0%Z) -> leafEnough items x = false ->
    exists l r used rest,
      leafSplit items (x :: tl) (snd (leafFind items x)) = Some (l, r, rest) /\ x :: tl = used ++ rest /\
      used <> [] /\ l <> [] /\ r <> [] /\ ssorted cmp (l ++ r) /\ Forall ok (l ++ r) /\ fit l /\ fit r /\
      (forall y, In y (l ++ r) <-> In y items \/ In y used) /\
      (length used = 1 \/ forall y, In y items -> (cmp y x < 0)%Z).

  Hypothesis Hkok : kok_ok.
  Hypothesis Hien : ienough_ok.
  Hypothesis Hisep : isep_ok.
  Hypothesis Hiroot : iroot_ok.
  Hypothesis Hrbd : rbound_ok cmp ifit lbound ok fit rbound.
  Hypothesis Hloc : locate_ok cmp lbound locate.
  Hypothesis Hfind : leafFind_ok cmp ok leafFind.
  Hypothesis Hplace : leafPlace_ok.
  Hypothesis Hsplit : leafSplit_ok.

  Notation page := (page T).
  Notation store := (list page).
  Notation Inv := (Inv cmp ifit lbound ok fit).
  Notation body := (body cmp ifit lbound ok fit).
  Notation ble := (ble cmp).
  Notation blt := (blt cmp).
  Notation dok := (dok cmp).
  Notation in_range := (in_range cmp).
  Notation insertUp := (insertUp ienough tnull isep rkey).
  Notation insertValue := (insertValue ienough tnull leafFind leafEnough leafPlace leafSplit isep rkey).
  Notation insertItems := (insertItems cmp rbound ienough tnull locate leafFind leafEnough leafPlace leafSplit isep rkey).
  Notation insertAll := (insertAll cmp rbound ienough tnull locate leafFind leafEnough leafPlace leafSplit isep rkey).

  (** ** downlink lists *)
  Lemma placeDown_at d off k0 c k r : nth_error d (off - 1) = Some (k0, c) -> 1 <= off ->
    exists d1 d2, d = d1 ++ (k0, c) :: d2 /\ placeDown d off k c r = placed d1 k0 c d2 k r.
  Proof.
    intros Hn Ho. apply nth_error_split in Hn as (d1 & d2 & E & El). exists d1, d2. split; [exact E|].
    unfold placeDown, placed. subst d. rewrite <- El, firstn_app, Nat.sub_diag, firstn_all. simpl. rewrite app_nil_r.
    rewrite skipn_app, Nat.sub_diag, skipn_all. reflexivity.
  Qed.

  Lemma dok_first_lim sl sh nr lim k c d : (forall kc, In kc ((k, c) :: d) -> blt (sl (snd kc)) (sh (snd kc))) ->
    dok sl sh nr lim ((k, c) :: d) -> ble (sh c) lim.
  Proof.
    revert k c. induction d as [|[k' c'] d IH]; intros k c Hs Hd.
    - destruct Hd as [[H _] _]. exact H.
    - destruct Hd as [[H1 _] Hd]. eapply (ble_trans cmp OK); [exact H1|]. eapply (ble_trans cmp OK).
      + apply blt_ble. apply (Hs (k', c')). right; left; reflexivity.
      + cbn [snd]. apply (IH k' c'); [|exact Hd]. intros kc Hk. apply Hs. right; exact Hk.
  Qed.
  Lemma dok_last_lim sl sh nr lim d k c : dok sl sh nr lim (d ++ [(k, c)]) -> dok sl sh nr (sh c) (d ++ [(k, c)]).
  Proof.
    induction d as [|[k1 c1] d IH]; cbn [app].
    - intros [[_ H] _]. cbn [BTreeInv.dok slot_ok]. repeat split; auto. apply ble_refl. exact OK.
    - cbn [BTreeInv.dok]. intros [H1 H2]. split; [|auto]. destruct d as [|[k2 c2] d]; exact H1.
  Qed.
  Lemma dok_last_le sl sh nr lim d k c : dok sl sh nr lim (d ++ [(k, c)]) -> ble (sh c) lim.
  Proof.
    intro H. apply (dok_at cmp OK) in H as [[H _] _]. exact H.
  Qed.
  Lemma dok_first_last sl sh nr lim k0 c0 d0 d k c :
    (forall kc, In kc (d ++ [(k, c)]) -> blt (sl (snd kc)) (sh (snd kc))) ->
    d ++ [(k, c)] = (k0, c0) :: d0 -> dok sl sh nr lim (d ++ [(k, c)]) -> blt (sl c0) (sh c).
  Proof.
    intros Hs E Hd. destruct d as [|[k1 c1] d]; cbn [app] in E; injection E as -> -> E.
    - apply (Hs (k0, c0)). left; reflexivity.
    - eapply (blt_le_trans cmp OK); [apply (Hs (k0, c0)); left; reflexivity|]. cbn [snd].
      eapply (ble_trans cmp OK); [|apply blt_ble; apply (Hs (k, c)); apply in_app_iff; right; left; reflexivity].
      cbn [snd app] in *. change (sl c) with (sl (snd (k, c))). eapply (dok_slo_le cmp OK); [exact Hs|exact Hd|].
      apply in_app_iff. right; left; reflexivity.
  Qed.

  (** ** adding a downlink *)
  Section Place.
    Context (tight : bool) (st : store) (root : nat) (G : @ghost T).
    Hypothesis HI : Inv tight st root G.
    Context (h p lb rb : nat) (pg : page) (d1 d2 : list (T * nat)) (k0 k : T).
    Hypothesis Hp : at_ G (S h) p.
    Hypothesis Hg : get st p = Some pg.
    Hypothesis Hrb : at_ G h rb.
    Hypothesis Ed : p_downs pg = d1 ++ (k0, lb) :: d2.
    Hypothesis Hlr : ble (shi G lb) (slo G rb).
    Hypothesis Hrk : ble (slo G rb) (BAt k).
    Hypothesis Hpend : slot_ok cmp (slo G) (negb (rightmost pg)) (shi G p) k0 d2 (shi G rb).
    Let d := placed d1 k0 lb d2 k rb.

    Lemma place_facts : Forall (fun kc => at_ G h (snd kc)) d /\
      dok (slo G) (shi G) (negb (rightmost pg)) (shi G p) d /\
      (lbound = true -> p_right pg <> None -> forall d' k' c, d = d' ++ [(k', c)] -> cmp (p_bound pg) k' = 0%Z) /\
      (exists kc d', d = kc :: d' /\ slo G p = slo G (snd kc)) /\
      (forall kc, In kc d -> blt (slo G (snd kc)) (shi G (snd kc))) /\
      ifit (d1 ++ (k0, lb) :: d2) /\ p_items pg = [].
    Proof.
      destruct (page_facts cmp ifit lbound ok fit tight st root G HI _ _ _ Hp Hg) as (_ & _ & _ & _ & _ & Hb).
      destruct Hb as (A & B & C & D & E & kc & dd & F & F'). rewrite Ed in *.
      assert (C' : Forall (fun kc => at_ G h (snd kc)) d).
      { unfold d, placed. apply Forall_app in C as [C1 C2]. inversion C2 as [|? ? C3 C4]; subst.
        apply Forall_app. split; [exact C1|]. repeat constructor; assumption. }
      split; [exact C'|]. split; [apply dok_place; auto|]. split.
      { intros Hl Hr d' k' c Ex. unfold d, placed in Ex.
        destruct d2 as [|x d2' _] using rev_ind.
        - assert (Ex' : (d1 ++ [(k, lb)]) ++ [(k0, rb)] = d' ++ [(k', c)]) by (rewrite <- app_assoc; exact Ex).
          apply app_inj_tail in Ex' as [_ Ex']. injection Ex' as <- <-. apply (E Hl Hr d1 k0 lb). reflexivity.
        - assert (Ex' : (d1 ++ (k, lb) :: (k0, rb) :: d2') ++ [x] = d' ++ [(k', c)]) by (rewrite <- app_assoc; exact Ex).
          apply app_inj_tail in Ex' as [_ ->]. apply (E Hl Hr (d1 ++ (k0, lb) :: d2') k' c). rewrite <- app_assoc. reflexivity. }
      split.
      { unfold d, placed. destruct d1 as [|x d1']; cbn [app] in *.
        - injection F as <- <-. cbn [snd] in F'. eexists _, _. split; [reflexivity|exact F'].
        - injection F as <- <-. eexists _, _. split; [reflexivity|exact F']. }
      split; [|auto].
      intros kc' Hk. rewrite Forall_forall in C'. exact (slo_lt_shi cmp ifit lbound ok fit tight st root G HI _ _ (C' _ Hk)).
    Qed.
    Lemma place_children c kk : In (kk, c) (p_downs pg) -> exists k', In (k', c) d.
    Proof.
      rewrite Ed. unfold d, placed. rewrite in_app_iff. intros [H|[H|H]].
      - exists kk. apply in_app_iff. auto.
      - injection H as <- <-. exists k. apply in_app_iff. right; left; reflexivity.
      - exists kk. apply in_app_iff. right; right; right; exact H.
    Qed.
    Lemma place_rb : In (k0, rb) d.
    Proof. unfold d, placed. apply in_app_iff. right; right; left; reflexivity. Qed.

    (** no split *)
    Lemma place_body : ifit d ->
      body tight G (S h) (slo G p) (shi G p)
        (mkPage (p_leaf pg) (p_items pg) d (p_bound pg) (p_left pg) (p_right pg) (p_deleted pg)).
    Proof.
      intro Hf. destruct place_facts as (A & B & C & D & _ & _ & E). cbn [BTreeInv.body].
      split; [exact E|]. split; [exact Hf|]. split; [exact A|]. split; [exact B|]. split; [exact C|exact D].
    Qed.

    (** split: the two halves *)
    Lemma place_halves sep kdef lft : 1 <= sep < length d -> ifit (firstn sep d) -> ifit (skipn sep d) ->
      let ld := firstn sep d in let rd := skipn sep d in let k' := fst (last ld kdef) in
      exists c1 c2 k2 rd', In (k', c1) ld /\ rd = (k2, c2) :: rd' /\
        blt (slo G p) (shi G c1) /\ ble (shi G c1) (slo G c2) /\ ble (slo G c2) (BAt k') /\
        blt (slo G c2) (shi G p) /\
        (forall rr, body tight G (S h) (slo G p) (shi G c1) (mkPage (p_leaf pg) [] ld k' lft (Some rr) false)) /\
        (forall ll, body tight G (S h) (slo G c2) (shi G p) (mkPage (p_leaf pg) [] rd (p_bound pg) ll (p_right pg) false)).
    Proof.
      intros Hsep Hfl Hfr ld rd k'. destruct place_facts as (A & B & C & D & Hs & _ & _).
      assert (Eld : exists d0 k1 c1, ld = d0 ++ [(k1, c1)]).
      { destruct ld as [|x l0] eqn:El using rev_ind; [|destruct x as [k1 c1]; eauto].
        assert (length ld = 0) by (rewrite El; reflexivity). unfold ld in H. rewrite firstn_length in H. lia. }
      destruct Eld as (d0 & k1 & c1 & Eld).
      assert (Erd : exists k2 c2 rd', rd = (k2, c2) :: rd').
      { destruct rd as [|[k2 c2] rd'] eqn:Er; [|eauto].
        assert (length rd = 0) by (rewrite Er; reflexivity). unfold rd in H. rewrite skipn_length in H. lia. }
      destruct Erd as (k2 & c2 & rd' & Erd).
      assert (Edd : d = d0 ++ (k1, c1) :: (k2, c2) :: rd').
      { rewrite <- (firstn_skipn sep d). fold ld rd. rewrite Eld, Erd, <- app_assoc. reflexivity. }
      assert (Ek : k' = k1) by (unfold k'; rewrite Eld, last_last; reflexivity).
      rewrite Edd in B. apply (dok_app cmp OK) in B as (B1 & B2 & B3).
      assert (Hs1 : forall kc, In kc ld -> blt (slo G (snd kc)) (shi G (snd kc))).
      { intros kc Hk. apply Hs. rewrite <- (firstn_skipn sep d). apply in_app_iff. left; exact Hk. }
      assert (Hs2 : forall kc, In kc rd -> blt (slo G (snd kc)) (shi G (snd kc))).
      { intros kc Hk. apply Hs. rewrite <- (firstn_skipn sep d). apply in_app_iff. right; exact Hk. }
      assert (A1 : Forall (fun kc => at_ G h (snd kc)) ld /\ Forall (fun kc => at_ G h (snd kc)) rd).
      { rewrite <- (firstn_skipn sep d) in A. apply Forall_app in A. exact A. }
      destruct D as ([kf cf] & df & Df & Df'). cbn [snd] in Df'.
      assert (Hf : exists dl, ld = (kf, cf) :: dl).
      { destruct ld as [|y dl] eqn:El; [destruct d0; discriminate|]. exists dl.
        assert (E0 : d = (y :: dl) ++ rd) by (rewrite <- (firstn_skipn sep d); fold ld rd; rewrite El; reflexivity).
        rewrite Df in E0. cbn [app] in E0. injection E0 as <- _. reflexivity. }
      destruct Hf as (dl & Hf).
      exists c1, c2, k2, rd'. rewrite Ek. split; [rewrite Eld; apply in_app_iff; right; left; reflexivity|].
      split; [exact Erd|]. split.
      { rewrite Df'. rewrite Eld in Hf, Hs1. eapply dok_first_last; [exact Hs1|exact Hf|exact B1]. }
      split; [eapply dok_last_le; exact B1|]. split; [exact B2|]. split.
      { eapply (blt_le_trans cmp OK); [apply (Hs2 (k2, c2)); rewrite Erd; left; reflexivity|]. cbn [snd].
        rewrite Erd in Hs2. eapply dok_first_lim; [exact Hs2|exact B3]. }
      split.
      - intro rr. cbn [BTreeInv.body]. unfold int_body. cbn [p_items p_downs p_right p_bound rightmost negb].
        split; [reflexivity|]. split; [exact Hfl|]. split; [apply A1|]. split.
        + unfold rightmost. cbn [p_right negb]. rewrite Eld in *. eapply dok_last_lim. exact B1.
        + split.
          * intros _ _ d' k'' c'' Ex. rewrite Eld in Ex. apply app_inj_tail in Ex as [_ Ex]. injection Ex as -> _.
            apply (tc_refl _ OK).
          * exists (kf, cf), dl. split; [exact Hf|exact Df'].
      - intro ll. cbn [BTreeInv.body]. unfold int_body. cbn [p_items p_downs p_right p_bound].
        split; [reflexivity|]. split; [exact Hfr|]. split; [apply A1|]. split.
        + unfold rightmost. cbn [p_right]. fold (rightmost pg). rewrite Erd. exact B3.
        + split.
          * intros Hl Hr d' k'' c'' Ex. apply (C Hl Hr (ld ++ d') k'' c''). rewrite <- app_assoc, <- Ex.
            symmetry. apply firstn_skipn.
          * exists (k2, c2), rd'. split; [exact Erd|reflexivity].
    Qed.
  End Place.

  (** ** the upper turns of the insertion *)
  Lemma rows_add_trans st0 G0 st1 G1 st2 G2 used : rows_add st0 G0 st1 G1 used -> rows_add st1 G1 st2 G2 [] ->
    rows_add (T := T) st0 G0 st2 G2 used.
  Proof. intros A B x. rewrite (B x), (A x). simpl. tauto. Qed.

  (** Pages stay on their level and keep their lower end, the root apart. *)
  Definition evolve (root : nat) (G G' : @ghost T) : Prop :=
    forall h b, at_ G h b -> b <> root -> at_ G' h b /\ slo G' b = slo G b.
  (** The logged changes one after another; [R] relates the rows before and after each. *)
  Inductive grows (R : list T -> list T -> Prop) (tight : bool) (root : nat) : store -> @ghost T -> list store -> @ghost T -> Prop :=
  | grows_nil st G : grows R tight root st G [] G
  | grows_cons st G s Gs tr G' : Inv tight s root Gs -> evolve root G Gs -> R (contents st G) (contents s Gs) ->
      grows R tight root s Gs tr G' -> grows R tight root st G (s :: tr) G'.
  Definition same_rows (C C' : list T) : Prop := forall x, In x C' <-> In x C.
  Definition chg_rows (gone : T -> bool) (used C C' : list T) : Prop :=
    same_rows C C' \/ forall x, In x C' <-> (In x C /\ gone x = false) \/ In x used.
  Lemma evolve_refl root G : evolve root G G.
  Proof. intros h b H _. auto. Qed.
  Lemma evolve_trans root G G' G'' : evolve root G G' -> evolve root G' G'' -> evolve root G G''.
  Proof. intros A B h b H Hn. destruct (A h b H Hn) as [H' E]. destruct (B h b H' Hn) as [H'' E']. split; [exact H''|congruence]. Qed.
  Lemma grows_weaken (R R' : list T -> list T -> Prop) tight root st G tr G' : (forall C C', R C C' -> R' C C') ->
    grows R tight root st G tr G' -> grows R' tight root st G tr G'.
  Proof. intros HR. induction 1; econstructor; eauto. Qed.
  Lemma grows_app (R : list T -> list T -> Prop) tight root st G tr tr2 G1 G2 : grows R tight root st G tr G1 -> grows R tight root (last tr st) G1 tr2 G2 ->
    grows R tight root st G (tr ++ tr2) G2.
  Proof.
    induction 1 as [|st G s Gs tr G1 HI He Hr H IH]; intro H2; [exact H2|]. rewrite last_cons_eq in H2. cbn [app]. econstructor; eauto.
  Qed.
  Lemma grows_one (R : list T -> list T -> Prop) tight root st G s Gs : Inv tight s root Gs -> evolve root G Gs -> R (contents st G) (contents s Gs) -> grows R tight root st G [s] Gs.
  Proof. intros A B C. econstructor; eauto. constructor. Qed.
  Lemma same_of_add st G s Gs : rows_add st G s Gs [] -> same_rows (contents st G) (contents s Gs).
  Proof. intros H x. rewrite (H x). simpl. tauto. Qed.

  Definition good (tight : bool) (root : nat) (st0 : store) (G0 : @ghost T) (used : list T) (s : store) : Prop :=
    exists G, Inv tight s root G /\ rows_add st0 G0 s G used.

  Lemma split_evolve tight st root G h p pg zl zr : Inv tight st root G -> at_ G h p -> get st p = Some pg -> evolve root G (splitG st G p zl zr).
  Proof.
    intros HI Hp Hg h0 b Hb Hn. split; [apply (snr_at cmp ifit lbound ok fit tight st root G HI h p zl zr Hp); auto|].
    pose proof (at_valid _ _ _ _ _ _ _ _ _ HI _ _ Hb). cbn [splitG slo]. destruct (Nat.eqb_spec b (length st)); [lia|reflexivity].
  Qed.
  Lemma root_evolve tight st root G k zl zr : Inv tight st root G -> (top G = 0 -> zr = BAt k) -> evolve root G (rootG st root G zl zr).
  Proof.
    intros HI H4 h0 b Hb Hn. split.
    - apply (sr_at cmp ifit lbound ok fit tight st root G HI k zl zr H4). left. split; [|exact Hb]. pose proof (at_le_top _ _ _ Hb).
      destruct (Nat.eq_dec h0 (top G)) as [E|E]; [|lia]. subst h0. destruct Hn. eapply at_top; eauto.
    - exact (sr_slo cmp ifit lbound ok fit tight st root G HI k zl zr H4 _ _ Hb).
  Qed.
  Lemma insertUp_grows tight root : forall fuel st G h p off up k lb rb,
    Inv tight st root G -> kok k ->
    at_ G h lb -> at_ G h rb -> parent_of st G (S h) p off lb -> wst root G p up ->
    ble (shi G lb) (slo G rb) -> ble (slo G rb) (BAt k) ->
    (forall pg d1 k0 d2, get st p = Some pg -> p_downs pg = d1 ++ (k0, lb) :: d2 ->
       slot_ok cmp (slo G) (negb (rightmost pg)) (shi G p) k0 d2 (shi G rb)) ->
    top G - h <= fuel ->
    exists tr lost, insertUp fuel st root ((p, off) :: up) k lb rb = Some (tr, lost) /\ tr <> [] /\
      Forall (good tight root st G []) tr /\
      exists G', Inv tight (last tr st) root G' /\ rows_add st G (last tr st) G' [] /\
        (complete_but st root G (fun x => x = rb) -> lost = false /\ complete (last tr st) root G') /\
        grows same_rows tight root st G tr G'.
  Proof.
    induction fuel as [|f IH]; intros st G h p off up k lb rb HI Hkk Hlb Hrb Hpo Hw Hlr Hrk Hpend Hf.
    { destruct Hpo as [Hp _]. pose proof (at_le_top _ _ _ Hp). lia. }
    destruct Hpo as (Hp & pg & k0 & Hg & Ho & Hn). cbn [BTree.insertUp]. rewrite Hg.
    destruct (placeDown_at _ _ _ _ k rb Hn Ho) as (d1 & d2 & Ed & Epl). rewrite Epl.
    specialize (Hpend pg d1 k0 d2 Hg Ed).
    assert (PF := place_facts tight st root G HI h p lb rb pg d1 d2 k0 k Hp Hg Hrb Ed Hlr Hrk Hpend).
    assert (Hifit : ifit (d1 ++ (k0, lb) :: d2)) by (decompose [and] PF; assumption).
    assert (Hitems : p_items pg = []) by (decompose [and] PF; assumption).
    rewrite Ed. destruct (ienough (d1 ++ (k0, lb) :: d2) k) eqn:Een.
    - (* room on the page *)
      assert (Hfit := Hien d1 k0 lb d2 k rb Hkk Hifit Een).
      assert (Hb := place_body tight st root G HI h p lb rb pg d1 d2 k0 k Hp Hg Hrb Ed Hlr Hrk Hpend Hfit).
      assert (HI' := set_page_inv cmp ifit lbound ok fit tight st root G HI (S h) p pg _ _ Hp Hg Hb).
      assert (HR : rows_add st G (set_page st p pg (p_items pg) (placed d1 k0 lb d2 k rb)) G []).
      { eapply (set_page_rows cmp ifit lbound ok fit tight st root G HI (S h) p pg); eauto; try discriminate. }
      eexists _, false. split; [reflexivity|]. split; [discriminate|]. split.
      + constructor; [|constructor]. exists G. auto.
      + exists G. cbn [last]. split; [exact HI'|]. split; [exact HR|].
        split; [|apply grows_one; [exact HI'|apply evolve_refl|exact (same_of_add _ _ _ _ HR)]]. intro Hc. split; [reflexivity|].
        eapply (set_page_complete cmp ifit lbound ok fit tight st root G HI (S h) p pg _ _ Hp Hg _ _ Hc).
        * intros c kk Hin. eapply place_children; eauto.
        * intros c -> _. exists h, k0. split; [reflexivity|]. split; [exact Hrb|apply place_rb].
    - (* split *)
      set (d := placed d1 k0 lb d2 k rb) in *.
      destruct (Hisep (rightmost pg) d1 k0 lb d2 k rb Hkk Hifit Een) as (Hsep & Hfl & Hfr). fold d in Hsep, Hfl, Hfr.
      set (sep := isep (rightmost pg) d) in *.
      destruct (place_halves tight st root G HI h p lb rb pg d1 d2 k0 k Hp Hg Hrb Ed Hlr Hrk Hpend sep (k, lb) (p_left pg) Hsep Hfl Hfr)
        as (c1 & c2 & k2 & rd' & Hin1 & Erd & H1 & H2 & H3 & H5 & HBL & HBR).
      fold d in Hin1, Erd, H1, H2, H3, H5, HBL, HBR.
      set (ld := firstn sep d) in *. set (rd := skipn sep d) in *. set (k' := fst (last ld (k, lb))) in *.
      destruct Hkok as (_ & Hk2 & Hk3).
      assert (Hkk' : kok k') by (apply (Hk2 ld (k', c1) Hfl Hin1)).
      assert (Hkr : kok (rkey (p_bound pg) [] rd)) by (apply Hk3; right; split; [reflexivity|]; split; [rewrite Erd; discriminate|exact Hfr]).
      assert (Hdd : forall kk cc, In (kk, cc) (p_downs pg) -> exists kk', In (kk', cc) (ld ++ rd)).
      { intros kk cc Hin. unfold ld, rd. rewrite firstn_skipn. eapply place_children; eauto. }
      assert (Hdr : forall x, x = rb -> exists hx kk, S h = S hx /\ at_ G hx x /\ In (kk, x) (ld ++ rd)).
      { intros x ->. exists h, k0. split; [reflexivity|]. split; [exact Hrb|]. unfold ld, rd. rewrite firstn_skipn. apply place_rb. }
      destruct up as [|[q oq] up'].
      + (* the root *)
        cbn [wst] in Hw. subst p.
        assert (Et : S h = top G) by exact (at_root_top _ _ _ _ _ _ _ _ _ HI _ Hp).
        rewrite (root_slo _ _ _ _ _ _ _ _ _ HI) in H1, HBL.
        destruct (root_right _ _ _ _ _ _ _ _ _ HI _ Hg) as [Hrr Hrl].
        assert (Hrow0 : top G = 0 -> forall x, In x (@nil T) \/ In x (@nil T) <-> In x (p_items pg) \/ In x (@nil T)) by (intro; lia).
        assert (HL' := HBL (length st)).
        assert (HR' := HBR (Some (S (length st)))). rewrite Hrr in HR'. rewrite Hrl in HL'.
        rewrite Et in HL', HR', Hdr.
        assert (H4 : top G = 0 -> slo G c2 = BAt k') by (intro; lia).
        assert (HI' := sr_inv cmp OK ifit lbound ok fit tnull rkey tight st root G HI pg k' [] [] ld rd _ _ Hg H1 H2 H3 H4 H5 HL' HR' (Hiroot _ _ _ _ Hkk' Hkr)).
        assert (HRo := sr_rows cmp OK ifit lbound ok fit tnull rkey tight st root G HI pg k' [] [] ld rd _ _ Hg H1 H2 H3 H4 H5 HL' HR' (Hiroot _ _ _ _ Hkk' Hkr) [] Hrow0 (fun _ => eq_refl)).
        assert (HCo := fun Hc => sr_complete cmp ifit lbound ok fit tnull rkey tight st root G HI pg k' [] [] ld rd (shi G c1) (slo G c2) Hg H4 (fun x => x = rb) Hc Hdd Hdr).
        eexists _, false. split; [reflexivity|]. split; [discriminate|]. split.
        * constructor; [|constructor]. eexists. split; [exact HI'|exact HRo].
        * eexists. cbn [last]. split; [exact HI'|]. split; [exact HRo|]. split; [intro Hc; split; [reflexivity|]; exact (HCo Hc)|].
          apply grows_one; [exact HI'| |exact (same_of_add _ _ _ _ HRo)]. eapply root_evolve; eauto.
      + (* another page *)
        assert (Hnr : p <> root) by (cbn [wst] in Hw; tauto).
        assert (HL' := HBL (length st)). assert (HR' := HBR (Some p)).
        assert (H4 : S h = 0 -> slo G c2 = BAt k') by (intro; lia).
        assert (HI' := snr_inv cmp OK ifit lbound ok fit tight st root G HI (S h) p pg k' [] [] ld rd _ _ Hp Hg Hnr H1 H2 H3 H4 H5 HL' HR').
        assert (HRo := snr_rows cmp OK ifit lbound ok fit tight st root G HI (S h) p pg k' [] [] ld rd _ _ Hp Hg Hnr H1 H2 H3 H4 H5 HL' HR' []
          ltac:(intro; lia) (fun _ => eq_refl)).
        assert (HCo := fun Hc => snr_complete cmp ifit lbound ok fit tight st root G HI (S h) p pg k' [] [] ld rd (shi G c1) (slo G c2) Hp Hg Hnr H4 HR' (fun x => x = rb) Hc Hdd Hdr).
        set (st1 := fst (splitNonRoot st p pg k' [] [] ld rd)) in *.
        assert (Esp : splitNonRoot st p pg k' [] [] ld rd = (st1, length st)) by reflexivity.
        rewrite Esp. set (G1 := splitG st G p (shi G c1) (slo G c2)) in *.
        assert (Hev : evolve root G G1) by (eapply split_evolve; eauto).
        assert (Hp1 : at_ G1 (S h) p) by (eapply snr_at; eauto).
        assert (Hr1 : at_ G1 (S h) (length st)) by (eapply snr_at; eauto).
        destruct (findParent_spec cmp OK ifit lbound ok fit tight st1 root G1 HI' (S h) p ((q, oq) :: up') Hp1 Hnr) as (res & Hfp & Hres).
        { eapply snr_wst; eauto. }
        rewrite Hfp. destruct res as [s2|].
        2: { exists [st1], true. split; [reflexivity|]. split; [discriminate|]. split; [constructor; [exists G1; auto|constructor]|].
          exists G1. cbn [last]. split; [exact HI'|]. split; [exact HRo|]. split; [|apply grows_one; [exact HI'|exact Hev|exact (same_of_add _ _ _ _ HRo)]]. intro Hc. exfalso. apply Hres.
          destruct (HCo Hc (S h) p Hp1 Hnr) as (q' & pq & kq & Hq1 & Hq2 & Hq3).
          { intros E. pose proof (snr_b_lt st p pg Hg). lia. }
          exists q', pq, kq. auto. }
        destruct Hres as (p2 & o2 & rest2 & -> & Hpo2 & Hw2).
        assert (Htop : top G1 = top G) by (apply snr_top).
        destruct (IH st1 G1 (S h) p2 o2 rest2 k' p (length st)) as (tr & lost & Hiu & Htr & Hgood & G' & HI2 & HR2 & HC2 & HG2); auto.
        * unfold G1. rewrite snr_shi_b, snr_slo_r. exact H2.
        * unfold G1. rewrite snr_slo_r. exact H3.
        * intros pg2 e1 kk e2 Hg2 Ee. destruct Hpo2 as [Hp2 _]. eapply (snr_pend cmp OK ifit lbound ok fit); eauto.
        * rewrite Htop. lia.
        * rewrite Hiu. exists (st1 :: tr), lost. split; [reflexivity|]. split; [discriminate|].
          assert (El : last (st1 :: tr) st = last tr st1) by apply last_cons_eq.
          rewrite El. split.
          -- constructor; [exists G1; auto|]. eapply Forall_impl; [|exact Hgood].
             intros s (Gs & HIs & HRs). exists Gs. split; [exact HIs|]. eapply rows_add_trans; eauto.
          -- exists G'. split; [exact HI2|]. split; [eapply rows_add_trans; eauto|]. split; [intro Hc; exact (HC2 (HCo Hc))|].
             econstructor; [exact HI'|exact Hev|exact (same_of_add _ _ _ _ HRo)|exact HG2].
  Qed.

  Lemma insertUp_spec tight root : forall fuel st G h p off up k lb rb,
    Inv tight st root G -> kok k ->
    at_ G h lb -> at_ G h rb -> parent_of st G (S h) p off lb -> wst root G p up ->
    ble (shi G lb) (slo G rb) -> ble (slo G rb) (BAt k) ->
    (forall pg d1 k0 d2, get st p = Some pg -> p_downs pg = d1 ++ (k0, lb) :: d2 ->
       slot_ok cmp (slo G) (negb (rightmost pg)) (shi G p) k0 d2 (shi G rb)) ->
    top G - h <= fuel ->
    exists tr lost, insertUp fuel st root ((p, off) :: up) k lb rb = Some (tr, lost) /\ tr <> [] /\
      Forall (good tight root st G []) tr /\
      exists G', Inv tight (last tr st) root G' /\ rows_add st G (last tr st) G' [] /\
        (complete_but st root G (fun x => x = rb) -> lost = false /\ complete (last tr st) root G').
  Proof.
    intros fuel st G h p off up k lb rb A1 A2 A3 A4 A5 A6 A7 A8 A9 A10.
    destruct (insertUp_grows tight root fuel st G h p off up k lb rb A1 A2 A3 A4 A5 A6 A7 A8 A9 A10) as (tr & lost & B1 & B2 & B3 & G' & B4 & B5 & B6 & _).
    exists tr, lost. split; [exact B1|]. split; [exact B2|]. split; [exact B3|]. exists G'. auto.
  Qed.

  (** ** the leaf turn *)
  Definition rows_ins (C used C' : list T) : Prop :=
    (forall x, In x C -> In x C') /\ (forall x, In x C' -> In x C \/ In x used) /\
    (forall y, In y used -> exists z, In z C' /\ cmp z y = 0%Z).
  Lemma rows_ins_trans C u1 C1 u2 C2 : rows_ins C u1 C1 -> rows_ins C1 u2 C2 -> rows_ins C (u1 ++ u2) C2.
  Proof.
    intros (A1 & B1 & D1) (A2 & B2 & D2). split; [auto|]. split.
    - intros x Hx. rewrite in_app_iff. destruct (B2 x Hx) as [Hx'|Hx']; [destruct (B1 x Hx')|]; auto.
    - intros y Hy. apply in_app_iff in Hy as [Hy|Hy]; [|auto]. destruct (D1 y Hy) as (z & Hz & E). exists z. auto.
  Qed.
  Lemma rows_add_ins st G st' G' added used : rows_add st G st' G' added ->
    (forall y, In y added -> In y used) ->
    (forall y, In y used -> In y added \/ exists o, In o (contents st G) /\ cmp o y = 0%Z) ->
    rows_ins (contents st G) used (contents st' G').
  Proof.
    intros R H1 H2. split; [intros x Hx; apply R; auto|]. split.
    - intros x Hx. apply R in Hx as [Hx|Hx]; auto.
    - intros y Hy. destruct (H2 y Hy) as [Hy'|(o & Ho & E)].
      + exists y. split; [apply R; auto|apply (tc_refl _ OK)].
      + exists o. split; [apply R; auto|exact E].
  Qed.

  Section Leaf.
    Context (tight : bool) (st : store) (root : nat) (G : @ghost T).
    Hypothesis HI : Inv tight st root G.
    Context (b : nat) (pg : page) (x : T) (tl : list T).
    Hypothesis Hat : at_ G 0 b.
    Hypothesis Hg : get st b = Some pg.
    Hypothesis Hx : in_range (slo G b) (shi G b) x.
    Hypothesis Hnf : forall y, In y (p_items pg) -> cmp y x <> 0%Z.
    Hypothesis Hbs : ssorted cmp (x :: tl).
    Hypothesis Hbo : Forall ok (x :: tl).
    Hypothesis Htl : (multi = true /\ tight = true) \/ tl = [].

    Lemma leaf_facts : shi G b = hi_of pg /\ p_downs pg = [] /\
      ssorted cmp (p_items pg) /\ Forall ok (p_items pg) /\ fit (p_items pg) /\
      (forall x, In x (p_items pg) -> in_range (slo G b) (shi G b) x) /\
      (tight = true \/ lbound = true -> p_right pg <> None ->
        forall x, in_range (slo G b) (shi G b) x -> exists y, In y (p_items pg) /\ (cmp x y <= 0)%Z).
    Proof. destruct (page_facts cmp ifit lbound ok fit tight st root G HI _ _ _ Hat Hg) as (_ & _ & _ & _ & _ & Hb). exact Hb. Qed.

    Lemma Hmu : multi = true \/ tl = [].
    Proof. destruct Htl as [[H _]|H]; auto. Qed.
    Lemma batch_ge y : In y (x :: tl) -> (cmp x y <= 0)%Z.
    Proof.
      intros [<-|Hy]; [rewrite (tc_refl _ OK); lia|]. apply ssorted_inv in Hbs as [_ F]. rewrite Forall_forall in F.
      specialize (F _ Hy). simpl in F. lia.
    Qed.
    Lemma batch_lo y : In y (x :: tl) -> blt (slo G b) (BAt y).
    Proof. intro Hy. eapply (blt_le_trans cmp OK); [apply Hx|]. apply bat_le. apply batch_ge. exact Hy. Qed.

    Lemma leaf_place_case : leafEnough (p_items pg) x = true ->
      exists items' used added rest, leafPlace (rightmost pg) (p_bound pg) (p_items pg) (x :: tl) = Some (items', rest) /\
        x :: tl = used ++ rest /\ used <> [] /\
        leaf_body cmp lbound ok fit tight (slo G b) (shi G b)
          (mkPage (p_leaf pg) items' (p_downs pg) (p_bound pg) (p_left pg) (p_right pg) (p_deleted pg)) /\
        (forall y, In y items' <-> In y (p_items pg) \/ In y added) /\
        (forall y, In y added -> In y used) /\
        (forall y, In y used -> In y added \/ exists o, In o (p_items pg) /\ cmp o y = 0%Z).
    Proof.
      intro Hen. destruct leaf_facts as (A & B & C & D & E & F & F').
      destruct (Hplace (rightmost pg) (p_bound pg) (p_items pg) x tl Hmu C D E Hbs Hbo Hnf) as
        (items' & used & added & rest & P1 & P2 & P3 & P4 & P5 & P6 & P7 & P8 & P9); auto.
      { unfold rightmost. destruct Hx as [_ Hx2]. rewrite A in Hx2. destruct (p_right pg) eqn:Er; [right|auto].
        unfold hi_of in Hx2. rewrite Er in Hx2. intros y [<-|Hy]; [apply bat_le in Hx2; exact Hx2|].
        destruct (F _ Hy) as [_ Hy2]. rewrite A in Hy2. unfold hi_of in Hy2. rewrite Er in Hy2. apply bat_le in Hy2. exact Hy2. }
      exists items', used, added, rest. split; [exact P1|]. split; [exact P2|]. split; [exact P3|]. split.
      - unfold leaf_body. cbn [p_items p_downs p_right p_bound]. split; [exact A|]. split; [exact B|].
        split; [exact P4|]. split; [exact P5|]. split; [exact P6|]. split.
        + intros y Hy. apply P7 in Hy as [Hy|Hy]; [auto|]. destruct (P8 y Hy) as [Hyu Hyb]. split.
          * apply batch_lo. rewrite P2. apply in_app_iff. auto.
          * rewrite A. unfold hi_of, rightmost in *. destruct (p_right pg); [|apply ble_max].
            destruct Hyb as [Hyb|Hyb]; [discriminate|]. apply bat_le. exact Hyb.
        + intros Ht Hr y Hy. destruct (F' Ht Hr y Hy) as (z & Hz & Hc). exists z. split; [apply P7; auto|exact Hc].
      - split; [exact P7|]. split; [intros y Hy; apply P8; exact Hy|exact P9].
    Qed.

    Lemma leaf_split_case : leafEnough (p_items pg) x = false ->
      exists l r used rest, leafSplit (p_items pg) (x :: tl) (snd (leafFind (p_items pg) x)) = Some (l, r, rest) /\
        x :: tl = used ++ rest /\ used <> [] /\
        let k := last l x in
        blt (slo G b) (BAt k) /\ blt (BAt k) (shi G b) /\
        (forall lft rr, leaf_body cmp lbound ok fit tight (slo G b) (BAt k) (mkPage (p_leaf pg) l [] k lft (Some rr) false)) /\
        (forall lft, leaf_body cmp lbound ok fit tight (BAt k) (shi G b) (mkPage (p_leaf pg) r [] (p_bound pg) lft (p_right pg) false)) /\
        (forall y, In y l \/ In y r <-> In y (p_items pg) \/ In y used) /\ l <> [] /\ r <> [].
    Proof.
      intro Hen. destruct leaf_facts as (A & B & C & D & E & F & F').
      destruct (Hsplit (p_items pg) x tl Hmu C D E Hbs Hbo Hnf Hen) as
        (l & r & used & rest & P1 & P2 & P3 & P4 & P5 & P6 & P7 & P8 & P9 & P10 & P11).
      exists l, r, used, rest. split; [exact P1|]. split; [exact P2|]. split; [exact P3|]. intro k.
      assert (Hall : forall y, In y (l ++ r) -> in_range (slo G b) (shi G b) y).
      { intros y Hy. apply P10 in Hy as [Hy|Hy]; [auto|].
        split; [apply batch_lo; rewrite P2; apply in_app_iff; auto|].
        rewrite A. unfold hi_of. destruct (p_right pg) as [r0|] eqn:Er; [|apply ble_max].
        assert (Hyx : y = x \/ (exists z, In z (p_items pg) /\ (cmp x z <= 0)%Z)).
        { destruct Htl as [[_ Ht]|Ht].
          - right. apply (F' (or_introl Ht)); [congruence|exact Hx].
          - left. destruct used as [|u [|u' us]]; [destruct Hy| |].
            + destruct Hy as [<-|[]]. cbn [app] in P2. congruence.
            + exfalso. rewrite Ht in P2. cbn [app] in P2. discriminate. }
        destruct Hyx as [->|(z & Hz & Hxz)].
        - destruct Hx as [_ Hx2]. rewrite A in Hx2. unfold hi_of in Hx2. rewrite Er in Hx2. exact Hx2.
        - destruct P11 as [P11|P11].
          + destruct used as [|u [|u' us]]; try discriminate. destruct Hy as [<-|[]]. cbn [app] in P2. injection P2 as -> _.
            destruct Hx as [_ Hx2]. rewrite A in Hx2. unfold hi_of in Hx2. rewrite Er in Hx2. exact Hx2.
          + exfalso. specialize (P11 _ Hz). apply (cmp_lt_gt _ OK) in P11. lia. }
      assert (Hk : In k l).
      { unfold k. destruct l as [|a l0]; [congruence|]. apply (in_rev_last a l0 x). }
      apply ssorted_app in P6 as (S1 & S2 & S3).
      assert (Hlk : forall y, In y l -> (cmp y k <= 0)%Z).
      { intros y Hy. unfold k. destruct l as [|z l0 _] using rev_ind; [destruct Hy|]. rewrite last_last.
        apply ssorted_app in S1 as (_ & _ & S4). apply in_app_iff in Hy as [Hy|[->|[]]].
        - specialize (S4 y z Hy (or_introl eq_refl)). lia.
        - rewrite (tc_refl _ OK). lia. }
      assert (Hkb : in_range (slo G b) (shi G b) k) by (apply Hall; apply in_app_iff; auto).
      apply Forall_app in P7 as [O1 O2].
      split; [apply Hkb|]. split.
      { destruct r as [|y r0]; [congruence|]. assert (Hy : in_range (slo G b) (shi G b) y) by (apply Hall; apply in_app_iff; right; left; reflexivity).
        eapply (blt_le_trans cmp OK); [|apply Hy]. apply bat_lt. apply S3; [exact Hk|left; reflexivity]. }
      split.
      { intros lft rr. unfold leaf_body. cbn [p_items p_downs p_right p_bound hi_of]. split; [reflexivity|]. split; [reflexivity|].
        split; [exact S1|]. split; [exact O1|]. split; [exact P8|]. split.
        - intros y Hy. split; [apply Hall; apply in_app_iff; auto|]. apply bat_le. auto.
        - intros _ _ y Hy. exists k. split; [exact Hk|]. destruct Hy as [_ Hy]. apply bat_le in Hy. exact Hy. }
      split.
      { intro lft. unfold leaf_body. cbn [p_items p_downs p_right p_bound]. split; [exact A|]. split; [reflexivity|].
        split; [exact S2|]. split; [exact O2|]. split; [exact P9|]. split.
        - intros y Hy. split; [apply bat_lt; auto|]. apply Hall. apply in_app_iff; auto.
        - intros Ht Hr y [Hy1 Hy2]. destruct (F' Ht Hr y) as (z & Hz & Hc).
          { split; [|exact Hy2]. eapply (blt_le_trans cmp OK); [apply Hkb|]. apply blt_ble. exact Hy1. }
          exists z. split; [|exact Hc]. assert (Hz' : In z (l ++ r)) by (apply P10; auto).
          apply in_app_iff in Hz' as [Hz'|Hz']; [|exact Hz']. exfalso. specialize (Hlk _ Hz').
          apply bat_lt in Hy1. pose proof (tc_trans _ OK _ _ _ Hc Hlk). apply (cmp_lt_gt _ OK) in Hy1. lia. }
      split; [|auto]. intro y. rewrite <- in_app_iff. apply P10.
    Qed.
  End Leaf.

  Definition good_ins (tight : bool) (root : nat) (C used : list T) (s : store) : Prop :=
    exists G, Inv tight s root G /\ rows_ins C used (contents s G).

  (** ** a leaf change with rows taken away and added, whatever the page functions *)
  Definition good_chg (tight : bool) (root : nat) (st0 : store) (G0 : @ghost T) (gone : T -> bool) (used : list T) (s : store) : Prop :=
    exists G, Inv tight s root G /\ rows_chg st0 G0 s G gone used.
  Lemma rows_chg_add_trans st0 G0 st1 G1 st2 G2 gone used : rows_chg st0 G0 st1 G1 gone used -> rows_add st1 G1 st2 G2 [] ->
    rows_chg (T := T) st0 G0 st2 G2 gone used.
  Proof. intros A B x. rewrite (B x), (A x). simpl. tauto. Qed.

  Lemma split_leaf_grows tight st root G b pg stack k l r gone used (rest : list T) :
    Inv tight st root G -> at_ G 0 b -> get st b = Some pg -> wst root G b stack ->
    blt (slo G b) (BAt k) -> blt (BAt k) (shi G b) ->
    (forall lft rr, leaf_body cmp lbound ok fit tight (slo G b) (BAt k) (mkPage (p_leaf pg) l [] k lft (Some rr) false)) ->
    (forall lft, leaf_body cmp lbound ok fit tight (BAt k) (shi G b) (mkPage (p_leaf pg) r [] (p_bound pg) lft (p_right pg) false)) ->
    page_chg (p_items pg) (l ++ r) gone used -> stay st G b gone -> kok k -> r <> [] ->
    exists tr lost,
      match stack with
      | [] => Some ([splitRoot tnull rkey st b pg k l r [] []], rest, false)
      | _ =>
          let '(st1, rb) := splitNonRoot st b pg k l r [] [] in
          match findParent st1 root b stack with
          | None => None
          | Some None => Some ([st1], rest, true)
          | Some (Some stack') =>
              match insertUp (S (length st)) st1 root stack' k b rb with
              | None => None
              | Some (tr, lost) => Some (st1 :: tr, rest, lost)
              end
          end
      end = Some (tr, rest, lost) /\ tr <> [] /\
      Forall (good_chg tight root st G gone used) tr /\
      exists G', Inv tight (last tr st) root G' /\ rows_chg st G (last tr st) G' gone used /\
        (complete st root G -> lost = false /\ complete (last tr st) root G') /\ grows (chg_rows gone used) tight root st G tr G'.
  Proof using Hkok Hien Hiroot Hisep OK.
    intros HI Hat Hg Hw H1 H5 HBL HBR Hrows Hstay Hkk Hrne.
    assert (Hkr : kok (rkey (p_bound pg) r [])).
    { destruct Hkok as (_ & _ & Hk3). apply Hk3. left. split; [exact Hrne|]. apply (HBR None). }
    assert (H2 : ble (BAt k) (BAt k)) by (apply ble_refl; exact OK).
    assert (H4 : 0 = 0 -> BAt k = BAt k) by auto.
    assert (Hdn : p_downs pg = []) by (destruct (leaf_facts tight st root G HI b pg Hat Hg) as (_ & H & _); exact H).
    assert (Hdd : forall (kk : T) (cc : nat), In (kk, cc) (p_downs pg) -> exists kk', In (kk', cc) (@nil (T * nat) ++ [])).
    { intros kk cc Hin. rewrite Hdn in Hin. destruct Hin. }
    destruct stack as [|[q oq] up].
    + cbn [wst] in Hw. subst b.
      assert (Et : 0 = top G) by exact (at_root_top _ _ _ _ _ _ _ _ _ HI _ Hat).
      rewrite (root_slo _ _ _ _ _ _ _ _ _ HI) in H1, HBL.
      destruct (root_right _ _ _ _ _ _ _ _ _ HI _ Hg) as [Hrr Hrl].
      assert (HL' : body tight G (top G) BMin (BAt k) (mkPage (p_leaf pg) l [] k None (Some (length st)) false)).
      { rewrite <- Et. apply HBL. }
      assert (HR' : body tight G (top G) (BAt k) (shi G root) (mkPage (p_leaf pg) r [] (p_bound pg) (Some (S (length st))) None false)).
      { rewrite <- Et. rewrite <- Hrr. apply HBR. }
      assert (HI' := sr_inv cmp OK ifit lbound ok fit tnull rkey tight st root G HI pg k l r [] [] _ _ Hg H1 H2 H2 (fun _ => eq_refl) H5 HL' HR' (Hiroot _ _ _ _ Hkk Hkr)).
      assert (HRo := sr_chg cmp OK ifit lbound ok fit tnull rkey tight st root G HI pg k l r [] [] _ _ Hg H1 H2 H2 (fun _ => eq_refl) H5 HL' HR' (Hiroot _ _ _ _ Hkk Hkr) gone used Hstay (fun _ => Hrows) ltac:(intro; lia)).
      assert (HCo := fun Hc => sr_complete cmp ifit lbound ok fit tnull rkey tight st root G HI pg k l r [] [] (BAt k) (BAt k) Hg (fun _ => eq_refl) (fun _ => False) Hc Hdd (fun x (F : False) => match F with end)).
      eexists _, false. split; [reflexivity|]. split; [discriminate|].
      split; [constructor; [eexists; split; [exact HI'|exact HRo]|constructor]|].
      eexists. cbn [last]. split; [exact HI'|]. split; [exact HRo|]. split; [intro Hc; split; [reflexivity|exact (HCo Hc)]|].
      apply grows_one; [exact HI'| |right; exact HRo]. eapply root_evolve; [exact HI|]. intros _. reflexivity.
    + assert (Hnr : b <> root) by (cbn [wst] in Hw; tauto).
      assert (HL' := HBL (p_left pg) (length st)). assert (HR' := HBR (Some b)).
      assert (HI' := snr_inv cmp OK ifit lbound ok fit tight st root G HI 0 b pg k l r [] [] _ _ Hat Hg Hnr H1 H2 H2 H4 H5 HL' HR').
      assert (HRo := snr_chg cmp OK ifit lbound ok fit tight st root G HI 0 b pg k l r [] [] _ _ Hat Hg Hnr H1 H2 H2 H4 H5 HL' HR' gone used Hstay (fun _ => Hrows) ltac:(congruence)).
      assert (HCo := fun Hc => snr_complete cmp ifit lbound ok fit tight st root G HI 0 b pg k l r [] [] (BAt k) (BAt k) Hat Hg Hnr H4 HR' (fun _ => False) Hc Hdd (fun x (F : False) => match F with end)).
      set (st1 := fst (splitNonRoot st b pg k l r [] [])) in *.
      assert (Esp : splitNonRoot st b pg k l r [] [] = (st1, length st)) by reflexivity.
      rewrite Esp. set (G1 := splitG st G b (BAt k) (BAt k)) in *.
      assert (Hev : evolve root G G1) by (eapply split_evolve; eauto).
      assert (Hp1 : at_ G1 0 b) by (eapply snr_at; eauto).
      assert (Hr1 : at_ G1 0 (length st)) by (eapply snr_at; eauto).
      destruct (findParent_spec cmp OK ifit lbound ok fit tight st1 root G1 HI' 0 b ((q, oq) :: up) Hp1 Hnr) as (res & Hfp & Hres).
      { eapply snr_wst; eauto. }
      rewrite Hfp. destruct res as [s2|].
      2: { exists [st1], true. split; [reflexivity|]. split; [discriminate|].
        split; [constructor; [exists G1; auto|constructor]|].
        exists G1. cbn [last]. split; [exact HI'|]. split; [exact HRo|]. split; [|apply grows_one; [exact HI'|exact Hev|right; exact HRo]]. intro Hc. exfalso. apply Hres.
        destruct (HCo Hc 0 b Hp1 Hnr) as (q' & pq & kq & Hq1 & Hq2 & Hq3).
        { intros E. pose proof (snr_b_lt st b pg Hg). lia. }
        exists q', pq, kq. auto. }
      destruct Hres as (p2 & o2 & rest2 & -> & Hpo2 & Hw2).
      assert (Htop : top G1 = top G) by (apply snr_top).
      destruct (insertUp_grows tight root (S (length st)) st1 G1 0 p2 o2 rest2 k b (length st)) as (tr & lost & Hiu & Htr & Hgood & G' & HI2 & HR2 & HC2 & HG2); auto.
      * unfold G1. rewrite snr_shi_b, snr_slo_r. exact H2.
      * unfold G1. rewrite snr_slo_r. exact H2.
      * intros pg2 e1 kk e2 Hg2 Ee. destruct Hpo2 as [Hp2 _]. eapply (snr_pend cmp OK ifit lbound ok fit); eauto.
      * rewrite Htop. pose proof (levels_le cmp ifit lbound ok fit tight st root G HI). unfold top. lia.
      * rewrite Hiu. exists (st1 :: tr), lost. split; [reflexivity|]. split; [discriminate|]. rewrite last_cons_eq. split.
        -- constructor; [exists G1; auto|]. eapply Forall_impl; [|exact Hgood]. intros s (Gs & HIs & HRs). exists Gs.
           split; [exact HIs|]. eapply rows_chg_add_trans; eauto.
        -- exists G'. split; [exact HI2|]. split; [eapply rows_chg_add_trans; eauto|]. split; [intro Hc; exact (HC2 (HCo Hc))|].
           econstructor; [exact HI'|exact Hev|right; exact HRo|]. eapply grows_weaken; [|exact HG2]. left. assumption.
  Qed.

  Lemma split_leaf_chg tight st root G b pg stack k l r gone used (rest : list T) :
    Inv tight st root G -> at_ G 0 b -> get st b = Some pg -> wst root G b stack ->
    blt (slo G b) (BAt k) -> blt (BAt k) (shi G b) ->
    (forall lft rr, leaf_body cmp lbound ok fit tight (slo G b) (BAt k) (mkPage (p_leaf pg) l [] k lft (Some rr) false)) ->
    (forall lft, leaf_body cmp lbound ok fit tight (BAt k) (shi G b) (mkPage (p_leaf pg) r [] (p_bound pg) lft (p_right pg) false)) ->
    page_chg (p_items pg) (l ++ r) gone used -> stay st G b gone -> kok k -> r <> [] ->
    exists tr lost,
      match stack with
      | [] => Some ([splitRoot tnull rkey st b pg k l r [] []], rest, false)
      | _ =>
          let '(st1, rb) := splitNonRoot st b pg k l r [] [] in
          match findParent st1 root b stack with
          | None => None
          | Some None => Some ([st1], rest, true)
          | Some (Some stack') =>
              match insertUp (S (length st)) st1 root stack' k b rb with
              | None => None
              | Some (tr, lost) => Some (st1 :: tr, rest, lost)
              end
          end
      end = Some (tr, rest, lost) /\ tr <> [] /\
      Forall (good_chg tight root st G gone used) tr /\
      exists G', Inv tight (last tr st) root G' /\ rows_chg st G (last tr st) G' gone used /\
        (complete st root G -> lost = false /\ complete (last tr st) root G').
  Proof using Hkok Hien Hiroot Hisep OK.
    intros A1 A2 A3 A4 A5 A6 A7 A8 A9 A10 A11 A12.
    destruct (split_leaf_grows tight st root G b pg stack k l r gone used rest A1 A2 A3 A4 A5 A6 A7 A8 A9 A10 A11 A12) as (tr & lost & B1 & B2 & B3 & G' & B4 & B5 & B6 & _).
    exists tr, lost. split; [exact B1|]. split; [exact B2|]. split; [exact B3|]. exists G'. auto.
  Qed.

  (** One row put in the place of the rows [gone] of its leaf. *)
  Lemma insertValue_chg_grows tight st root G b pg stack x gone :
    Inv tight st root G -> at_ G 0 b -> get st b = Some pg -> wst root G b stack -> stay st G b gone ->
    (leafEnough (p_items pg) x = true ->
      exists items', leafPlace (rightmost pg) (p_bound pg) (p_items pg) [x] = Some (items', []) /\
        leaf_body cmp lbound ok fit tight (slo G b) (shi G b)
          (mkPage (p_leaf pg) items' (p_downs pg) (p_bound pg) (p_left pg) (p_right pg) (p_deleted pg)) /\
        page_chg (p_items pg) items' gone [x]) ->
    (leafEnough (p_items pg) x = false ->
      exists l r, leafSplit (p_items pg) [x] (snd (leafFind (p_items pg) x)) = Some (l, r, []) /\
        let k := last l x in
        blt (slo G b) (BAt k) /\ blt (BAt k) (shi G b) /\
        (forall lft rr, leaf_body cmp lbound ok fit tight (slo G b) (BAt k) (mkPage (p_leaf pg) l [] k lft (Some rr) false)) /\
        (forall lft, leaf_body cmp lbound ok fit tight (BAt k) (shi G b) (mkPage (p_leaf pg) r [] (p_bound pg) lft (p_right pg) false)) /\
        page_chg (p_items pg) (l ++ r) gone [x] /\ l <> [] /\ r <> []) ->
    exists tr lost, insertValue st root b stack [x] = Some (tr, [], lost) /\ tr <> [] /\
      Forall (good_chg tight root st G gone [x]) tr /\
      exists G', Inv tight (last tr st) root G' /\ rows_chg st G (last tr st) G' gone [x] /\
        (complete st root G -> lost = false /\ complete (last tr st) root G') /\ grows (chg_rows gone [x]) tight root st G tr G'.
  Proof using Hkok Hien Hiroot Hisep OK.
    intros HI Hat Hg Hw Hst HP HS. unfold BTree.insertValue. rewrite Hg.
    destruct (leafEnough (p_items pg) x) eqn:Hen.
    - destruct (HP eq_refl) as (items' & P1 & P4 & P5). rewrite P1.
      assert (HI' := set_page_inv cmp ifit lbound ok fit tight st root G HI 0 b pg items' (p_downs pg) Hat Hg P4).
      assert (HR := set_page_chg cmp ifit lbound ok fit tight st root G HI 0 b pg items' (p_downs pg) Hat Hg gone [x] HI' Hst (fun _ => P5) ltac:(congruence)).
      eexists _, false. split; [reflexivity|]. split; [discriminate|].
      split; [constructor; [exists G; auto|constructor]|]. exists G. cbn [last]. split; [exact HI'|]. split; [exact HR|].
      split; [|apply grows_one; [exact HI'|apply evolve_refl|right; exact HR]]. intro Hc. split; [reflexivity|].
      eapply (set_page_complete cmp ifit lbound ok fit tight st root G HI 0 b pg items' (p_downs pg) Hat Hg _ _ Hc); [eauto|intros c []].
    - destruct (HS eq_refl) as (l & r & P1 & H1 & H5 & HBL & HBR & Hrows & Hl & Hr). rewrite P1.
      assert (Hkk : kok (last l x)).
      { destruct Hkok as (Hk1 & _). apply Hk1. destruct (HBL None 0) as (_ & _ & _ & Ho & _). cbn [p_items] in Ho.
        rewrite Forall_forall in Ho. apply Ho. destruct l as [|a l0]; [congruence|]. apply (in_rev_last a l0 x). }
      exact (split_leaf_grows tight st root G b pg stack _ l r gone [x] [] HI Hat Hg Hw H1 H5 HBL HBR Hrows Hst Hkk Hr).
  Qed.

  Lemma insertValue_chg tight st root G b pg stack x gone :
    Inv tight st root G -> at_ G 0 b -> get st b = Some pg -> wst root G b stack -> stay st G b gone ->
    (leafEnough (p_items pg) x = true ->
      exists items', leafPlace (rightmost pg) (p_bound pg) (p_items pg) [x] = Some (items', []) /\
        leaf_body cmp lbound ok fit tight (slo G b) (shi G b)
          (mkPage (p_leaf pg) items' (p_downs pg) (p_bound pg) (p_left pg) (p_right pg) (p_deleted pg)) /\
        page_chg (p_items pg) items' gone [x]) ->
    (leafEnough (p_items pg) x = false ->
      exists l r, leafSplit (p_items pg) [x] (snd (leafFind (p_items pg) x)) = Some (l, r, []) /\
        let k := last l x in
        blt (slo G b) (BAt k) /\ blt (BAt k) (shi G b) /\
        (forall lft rr, leaf_body cmp lbound ok fit tight (slo G b) (BAt k) (mkPage (p_leaf pg) l [] k lft (Some rr) false)) /\
        (forall lft, leaf_body cmp lbound ok fit tight (BAt k) (shi G b) (mkPage (p_leaf pg) r [] (p_bound pg) lft (p_right pg) false)) /\
        page_chg (p_items pg) (l ++ r) gone [x] /\ l <> [] /\ r <> []) ->
    exists tr lost, insertValue st root b stack [x] = Some (tr, [], lost) /\ tr <> [] /\
      Forall (good_chg tight root st G gone [x]) tr /\
      exists G', Inv tight (last tr st) root G' /\ rows_chg st G (last tr st) G' gone [x] /\
        (complete st root G -> lost = false /\ complete (last tr st) root G').
  Proof using Hkok Hien Hiroot Hisep OK.
    intros A1 A2 A3 A4 A5 A6 A7. destruct (insertValue_chg_grows tight st root G b pg stack x gone A1 A2 A3 A4 A5 A6 A7) as (tr & lost & B1 & B2 & B3 & G' & B4 & B5 & B6 & _).
    exists tr, lost. split; [exact B1|]. split; [exact B2|]. split; [exact B3|]. exists G'. auto.
  Qed.

  Lemma insertValue_grows tight st root G b pg stack x tl :
    Inv tight st root G -> at_ G 0 b -> get st b = Some pg ->
    in_range (slo G b) (shi G b) x -> wst root G b stack -> (forall y, In y (p_items pg) -> cmp y x <> 0%Z) ->
    ssorted cmp (x :: tl) -> Forall ok (x :: tl) -> (multi = true /\ tight = true) \/ tl = [] ->
    exists tr used rest lost, insertValue st root b stack (x :: tl) = Some (tr, rest, lost) /\
      x :: tl = used ++ rest /\ used <> [] /\ tr <> [] /\
      Forall (good_ins tight root (contents st G) used) tr /\
      exists G', Inv tight (last tr st) root G' /\
        rows_ins (contents st G) used (contents (last tr st) G') /\
        (complete st root G -> lost = false /\ complete (last tr st) root G') /\ grows (@incl T) tight root st G tr G'.
  Proof.
    intros HI Hat Hg Hx Hw Hnf Hbs Hbo Htl. unfold BTree.insertValue. rewrite Hg.
    assert (Hcin : forall y, In y (p_items pg) -> In y (contents st G)).
    { intros y Hy. apply (contents_in cmp ifit lbound ok fit tight st root G HI). eauto. }
    destruct (leafEnough (p_items pg) x) eqn:Hen.
    - destruct (leaf_place_case tight st root G HI b pg x tl Hat Hg Hx Hnf Hbs Hbo Htl Hen) as
        (items' & used & added & rest & P1 & P2 & P3 & P4 & P5 & P6 & P7).
      rewrite P1. assert (HI' := set_page_inv cmp ifit lbound ok fit tight st root G HI 0 b pg items' (p_downs pg) Hat Hg P4).
      assert (HR := set_page_rows cmp ifit lbound ok fit tight st root G HI 0 b pg items' (p_downs pg) Hat Hg added HI' (fun _ => P5) ltac:(congruence)).
      assert (HR' : rows_ins (contents st G) used (contents (set_page st b pg items' (p_downs pg)) G)).
      { eapply rows_add_ins; eauto. intros y Hy. destruct (P7 y Hy) as [H|(o & Ho & E)]; eauto. }
      eexists _, used, rest, false. split; [reflexivity|]. split; [exact P2|]. split; [exact P3|]. split; [discriminate|].
      split; [constructor; [exists G; auto|constructor]|]. exists G. cbn [last]. split; [exact HI'|]. split; [exact HR'|].
      split; [|apply grows_one; [exact HI'|apply evolve_refl|exact (proj1 HR')]]. intro Hc. split; [reflexivity|].
      eapply (set_page_complete cmp ifit lbound ok fit tight st root G HI 0 b pg items' (p_downs pg) Hat Hg _ _ Hc); [eauto|intros c []].
    - destruct (leaf_split_case tight st root G HI b pg x tl Hat Hg Hx Hnf Hbs Hbo Htl Hen) as
        (l & r & used & rest & P1 & P2 & P3 & H1 & H5 & HBL & HBR & Hrows & Hlne & Hrne).
      rewrite P1.
      assert (Hkk : kok (last l x)).
      { destruct Hkok as (Hk1 & _). apply Hk1. destruct (HBL None 0) as (_ & _ & _ & Ho & _). cbn [p_items] in Ho.
        rewrite Forall_forall in Ho. apply Ho. destruct l as [|a l0]; [congruence|]. apply (in_rev_last a l0 x). }
      assert (Hp : page_chg (p_items pg) (l ++ r) (fun _ => false) used).
      { intro y. rewrite in_app_iff, Hrows. tauto. }
      destruct (split_leaf_grows tight st root G b pg stack _ l r (fun _ => false) used rest HI Hat Hg Hw H1 H5 HBL HBR Hp (fun _ _ _ _ _ _ _ => eq_refl) Hkk Hrne)
        as (tr & lost & E & Hne & Hgd & G' & HI' & HR' & HC' & HG').
      assert (K : forall s Gs, rows_chg st G s Gs (fun _ => false) used -> rows_ins (contents st G) used (contents s Gs)).
      { intros s Gs Hs. apply (rows_add_ins st G s Gs used used); auto. intro y. pose proof (Hs y) as Hy. cbn beta in Hy. tauto. }
      exists tr, used, rest, lost. split; [exact E|]. split; [exact P2|]. split; [exact P3|]. split; [exact Hne|]. split.
      + eapply Forall_impl; [|exact Hgd]. intros s (Gs & HIs & HRs). exists Gs. auto.
      + exists G'. split; [exact HI'|]. split; [auto|]. split; [exact HC'|]. eapply grows_weaken; [|exact HG'].
        intros C C' [Hc|Hc] y Hy; apply Hc; auto.
  Qed.

  Lemma insertValue_spec tight st root G b pg stack x tl :
    Inv tight st root G -> at_ G 0 b -> get st b = Some pg ->
    in_range (slo G b) (shi G b) x -> wst root G b stack -> (forall y, In y (p_items pg) -> cmp y x <> 0%Z) ->
    ssorted cmp (x :: tl) -> Forall ok (x :: tl) -> (multi = true /\ tight = true) \/ tl = [] ->
    exists tr used rest lost, insertValue st root b stack (x :: tl) = Some (tr, rest, lost) /\
      x :: tl = used ++ rest /\ used <> [] /\ tr <> [] /\
      Forall (good_ins tight root (contents st G) used) tr /\
      exists G', Inv tight (last tr st) root G' /\
        rows_ins (contents st G) used (contents (last tr st) G') /\
        (complete st root G -> lost = false /\ complete (last tr st) root G').
  Proof.
    intros A1 A2 A3 A4 A5 A6 A7 A8 A9. destruct (insertValue_grows tight st root G b pg stack x tl A1 A2 A3 A4 A5 A6 A7 A8 A9) as (tr & used & rest & lost & B1 & B2 & B2' & B2'' & B3 & G' & B4 & B5 & B6 & _).
    exists tr, used, rest, lost. split; [exact B1|]. split; [exact B2|]. split; [exact B2'|]. split; [exact B2''|]. split; [exact B3|]. exists G'. auto.
  Qed.

  (** ** a whole batch *)
  (** Any tree that satisfies the invariant, also one with pages that have no downlink; [done]: the
      part of the batch worked off before "Lost path", if that is raised. *)
  Lemma insertItems_grows tight root : forall fuel batch st G,
    Inv tight st root G -> ssorted cmp batch -> Forall ok batch ->
    (multi = true /\ tight = true) \/ length batch <= 1 -> length batch < fuel ->
    exists tr lost done todo, insertItems fuel st root batch = Some (tr, lost) /\ batch = done ++ todo /\ (lost = false -> todo = []) /\
      Forall (fun s => exists u v, batch = u ++ v /\ u <> [] /\ good_ins tight root (contents st G) u s) tr /\
      exists G', Inv tight (last tr st) root G' /\ rows_ins (contents st G) done (contents (last tr st) G') /\
        (complete st root G -> lost = false /\ complete (last tr st) root G') /\ grows (@incl T) tight root st G tr G'.
  Proof.
    induction fuel as [|f IH]; intros batch st G HI Hs Ho Htl Hf; [lia|].
    destruct batch as [|x tl]; cbn [BTree.insertItems].
    - exists [], false, [], []. split; [reflexivity|]. split; [reflexivity|]. split; [auto|]. split; [constructor|].
      exists G. cbn [last]. split; [exact HI|]. split; [|split; [auto|constructor]]. split; [auto|]. split; [auto|intros y []].
    - destruct (findLeaf_root cmp OK ifit lbound ok fit rbound locate Hrbd Hloc tight st root G HI x) as (b & stack & Hfl & Hat & Hr & Hst).
      rewrite Hfl. destruct (page_get cmp ifit lbound ok fit tight st root G HI _ _ Hat) as [pg Hg]. rewrite Hg.
      destruct (leaf_facts tight st root G HI b pg Hat Hg) as (_ & _ & Hsi & Hoi & _).
      assert (Hox : ok x) by (inversion Ho; assumption).
      pose proof (Hfind (p_items pg) x Hsi Hoi Hox) as Hff.
      apply ssorted_inv in Hs as Hs'. destruct Hs' as [Hs' _].
      assert (Ho' : Forall ok tl) by (inversion Ho; assumption).
      destruct (fst (leafFind (p_items pg) x)) eqn:Ef.
      + destruct (proj1 Hff eq_refl) as (y & Hy & Ey).
        destruct (IH tl st G HI Hs' Ho') as (tr & lost & done & todo & Hi & Ed & Hlo & Htr & G' & HI' & HR' & HC' & HG'); [destruct Htl as [H|H]; [auto|right; simpl in H; lia]|simpl in Hf; lia|].
        assert (HRx : rows_ins (contents st G) [x] (contents st G)).
        { split; [auto|]. split; [auto|]. intros z [<-|[]]. exists y. split; [|exact Ey].
          apply (contents_in cmp ifit lbound ok fit tight st root G HI). eauto. }
        exists tr, lost, (x :: done), todo. split; [exact Hi|]. split; [cbn [app]; congruence|]. split; [exact Hlo|]. split.
        * eapply Forall_impl; [|exact Htr]. intros s (u & v & E & Hu & (Gs & HIs & HRs)). exists (x :: u), v.
          split; [cbn [app]; congruence|]. split; [discriminate|]. exists Gs. split; [exact HIs|].
          exact (rows_ins_trans _ [x] _ u _ HRx HRs).
        * exists G'. split; [exact HI'|]. split; [exact (rows_ins_trans _ [x] _ done _ HRx HR')|split; [exact HC'|exact HG']].
      + assert (Hnf : forall y, In y (p_items pg) -> cmp y x <> 0%Z).
        { intros y Hy E. assert (false = true) by (apply Hff; eauto). discriminate. }
        destruct (insertValue_grows tight st root G b pg stack x tl HI Hat Hg Hr) as
          (tr & used & rest & lost & Hiv & E & Hu & Htrn & Hgood & G1 & HI1 & HR1 & HC1 & HG1); auto.
        { eapply (wst_of_stack_ok cmp ifit lbound ok fit tight st root G HI); eauto. }
        { destruct Htl as [H|H]; [auto|right]. destruct tl; [reflexivity|simpl in H; lia]. }
        rewrite Hiv. rewrite E in Hs, Ho, Htl, Hf. apply ssorted_app in Hs as (_ & Hsr & _). apply Forall_app in Ho as [_ Hor].
        assert (Hgood' : Forall (fun s => exists u v, x :: tl = u ++ v /\ u <> [] /\ good_ins tight root (contents st G) u s) tr).
        { eapply Forall_impl; [|exact Hgood]. intros s Hgs. exists used, rest. auto. }
        destruct lost.
        { exists tr, true, used, rest. split; [reflexivity|]. split; [exact E|]. split; [discriminate|]. split; [exact Hgood'|].
          exists G1. auto. }
        assert (Hlen : length rest < f) by (rewrite app_length in Hf; destruct used; [congruence|simpl in Hf; lia]).
        destruct (IH rest (last tr st) G1 HI1 Hsr Hor) as (tr2 & lost2 & done2 & todo2 & Hi & Ed2 & Hlo2 & Htr2 & G2 & HI2 & HR2 & HC2 & HG2); [destruct Htl as [H|H]; [auto|right; rewrite app_length in H; lia]|exact Hlen|].
        rewrite Hi. exists (tr ++ tr2), lost2, (used ++ done2), todo2. split; [reflexivity|].
        split; [rewrite <- app_assoc, <- Ed2; exact E|]. split; [exact Hlo2|].
        assert (El : last (tr ++ tr2) st = last tr2 (last tr st)).
        { clear. destruct tr2 as [|s tr2 _] using rev_ind; [rewrite app_nil_r; reflexivity|].
          rewrite app_assoc, !last_last. reflexivity. }
        rewrite El. split.
        * apply Forall_app. split; [exact Hgood'|].
          eapply Forall_impl; [|exact Htr2]. intros s (u & v & E2 & Hu2 & (Gs & HIs & HRs)). exists (used ++ u), v.
          split; [rewrite <- app_assoc, <- E2; exact E|]. split; [destruct used; [congruence|discriminate]|]. exists Gs. split; [exact HIs|].
          exact (rows_ins_trans _ _ _ _ _ HR1 HRs).
        * exists G2. split; [exact HI2|]. split; [exact (rows_ins_trans _ _ _ _ _ HR1 HR2)|].
          split; [intro Hc; apply HC2; apply HC1; exact Hc|]. eapply grows_app; eauto.
  Qed.
  Lemma insertItems_spec tight root : forall fuel batch st G,
    Inv tight st root G -> ssorted cmp batch -> Forall ok batch ->
    (multi = true /\ tight = true) \/ length batch <= 1 -> length batch < fuel ->
    exists tr lost done todo, insertItems fuel st root batch = Some (tr, lost) /\ batch = done ++ todo /\ (lost = false -> todo = []) /\
      Forall (fun s => exists u v, batch = u ++ v /\ u <> [] /\ good_ins tight root (contents st G) u s) tr /\
      exists G', Inv tight (last tr st) root G' /\ rows_ins (contents st G) done (contents (last tr st) G') /\
        (complete st root G -> lost = false /\ complete (last tr st) root G').
  Proof.
    intros fuel batch st G A1 A2 A3 A4 A5. destruct (insertItems_grows tight root fuel batch st G A1 A2 A3 A4 A5) as (tr & lost & done & todo & B1 & B2 & B3 & B3' & G' & B4 & B5 & B6 & _).
    exists tr, lost, done, todo. split; [exact B1|]. split; [exact B2|]. split; [exact B3|]. split; [exact B3'|]. exists G'. auto.
  Qed.
End Ins.
