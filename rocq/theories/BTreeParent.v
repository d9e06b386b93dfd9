(** Search for the parent of a page (findChildPtr, rumFindParents) under the invariant. *)
From Verif Require Import Ord BTree BTreeInv BTreeFind.
From Coq Require Import List ZArith Bool Arith Lia.
Import ListNotations.

Lemma nth_skipn {A} (l : list A) n m : nth_error (skipn n l) m = nth_error l (n + m).
Proof. revert n. induction l as [|a l IH]; intros [|n]; simpl; auto. destruct m; reflexivity. Qed.
Lemma nth_firstn_some {A} (l : list A) n m x : nth_error (firstn n l) m = Some x -> nth_error l m = Some x.
Proof.
  revert n m. induction l as [|a l IH]; intros [|n] [|m] H; simpl in *; try discriminate; auto. eapply IH; eauto.
Qed.

Section Parent.
  Context {T : Type}.
  Variable cmp : T -> T -> Z.
  Hypothesis OK : total_cmp cmp.
  Variable ifit : list (T * nat) -> Prop.
  Variable lbound : bool.
  Variable ok : T -> Prop.
  Variable fit : list T -> Prop.

  Notation page := (page T).
  Notation store := (list page).
  Notation Inv := (Inv cmp ifit lbound ok fit).

  Lemma find_child_some (d : list (T * nat)) c : forall i o, find_child_from d c i = Some o ->
    i <= o /\ exists k, nth_error d (o - i) = Some (k, c).
  Proof.
    induction d as [|[k c'] d IH]; intros i o H; cbn [find_child_from] in H; [discriminate|].
    destruct (Nat.eqb_spec c' c) as [->|Hn].
    - injection H as <-. split; [lia|]. exists k. rewrite Nat.sub_diag. reflexivity.
    - apply IH in H as (Hi & k' & Hk). split; [lia|]. exists k'. replace (o - i) with (S (o - S i)) by lia. exact Hk.
  Qed.
  Lemma find_child_none (d : list (T * nat)) c : forall i, find_child_from d c i = None -> forall k, ~ In (k, c) d.
  Proof.
    induction d as [|[k c'] d IH]; intros i H k0 Hin; cbn [find_child_from] in H; [destruct Hin|].
    destruct (Nat.eqb_spec c' c) as [->|Hn]; [discriminate|].
    destruct Hin as [E|Hin]; [congruence|]. eapply IH; eauto.
  Qed.

  Lemma findChildPtr_some (pg : page) c stored o : findChildPtr pg c stored = Some o ->
    1 <= o /\ exists k, nth_error (p_downs pg) (o - 1) = Some (k, c).
  Proof.
    unfold findChildPtr. set (d := p_downs pg).
    destruct ((1 <=? stored) && (stored <=? length d)) eqn:E.
    - apply andb_true_iff in E as [E1 E2]. apply Nat.leb_le in E1, E2.
      destruct (find_child_from (skipn (stored - 1) d) c stored) as [o'|] eqn:F.
      + intro H. injection H as <-. apply find_child_some in F as (Hi & k & Hk). split; [lia|]. exists k.
        rewrite nth_skipn in Hk. replace (o' - 1) with (stored - 1 + (o' - stored)) by lia. exact Hk.
      + intro H. apply find_child_some in H as (Hi & k & Hk). split; [exact Hi|]. exists k.
        exact (nth_firstn_some _ _ _ _ Hk).
    - intro H. apply find_child_some in H as (Hi & k & Hk). split; [exact Hi|]. exists k. exact Hk.
  Qed.
  Lemma findChildPtr_none (pg : page) c stored : findChildPtr pg c stored = None ->
    forall k, ~ In (k, c) (p_downs pg).
  Proof.
    unfold findChildPtr. set (d := p_downs pg).
    destruct ((1 <=? stored) && (stored <=? length d)) eqn:E.
    - destruct (find_child_from (skipn (stored - 1) d) c stored) as [o'|] eqn:F; [discriminate|].
      intros H k Hin. rewrite <- (firstn_skipn (stored - 1) d) in Hin. apply in_app_iff in Hin as [Hin|Hin].
      + eapply find_child_none in H; eauto.
      + eapply find_child_none in F; eauto.
    - intros H k. eapply find_child_none; eauto.
  Qed.

  Section State.
    Context (tight : bool) (st : store) (root : nat) (G : @ghost T).
    Hypothesis HI : Inv tight st root G.

    Definition parent_of (h p o c : nat) : Prop :=
      at_ G h p /\ exists pg k, get st p = Some pg /\ 1 <= o /\ nth_error (p_downs pg) (o - 1) = Some (k, c).

    Lemma walkParent_spec fuel : forall h L1 b L2 stored c,
      nth_error (lv G) h = Some (L1 ++ b :: L2) -> length L2 < fuel ->
      exists res, walkParent fuel st b stored c = Some res /\
        match res with
        | Some (p, o) => parent_of h p o c
        | None => forall p pg k, In p (b :: L2) -> get st p = Some pg -> ~ In (k, c) (p_downs pg)
        end.
    Proof.
      induction fuel as [|f IH]; intros h L1 b L2 stored c HL Hf; [lia|].
      assert (Hat : at_ G h b) by (exists (L1 ++ b :: L2); split; [exact HL|apply in_app_iff; right; left; reflexivity]).
      destruct (page_get cmp ifit lbound ok fit tight st root G HI _ _ Hat) as [pg Hg]. cbn [walkParent]. rewrite Hg.
      destruct (findChildPtr pg c stored) as [o|] eqn:Ef.
      - exists (Some (b, o)). split; [reflexivity|]. split; [exact Hat|].
        apply findChildPtr_some in Ef as (Ho & k & Hk). eauto.
      - pose proof (findChildPtr_none _ _ _ Ef) as Hno.
        pose proof (I_links _ _ _ _ _ _ _ _ _ HI _ _ HL) as Hl. apply links_at in Hl as (pg' & Hg' & Hr' & _).
        rewrite Hg in Hg'. injection Hg' as <-. rewrite Hr'. destruct L2 as [|r L2]; cbn [hd_error].
        + exists None. split; [reflexivity|]. intros p pg0 k [<-|[]] Hp. rewrite Hg in Hp. injection Hp as <-. apply Hno.
        + destruct (IH h (L1 ++ [b]) r L2 0 c) as (res & Hw & Hres).
          * rewrite <- app_assoc. exact HL.
          * simpl in Hf. lia.
          * exists res. split; [exact Hw|]. destruct res as [[p o]|]; [exact Hres|].
            intros p pg0 k [<-|Hp] Hpg; [rewrite Hg in Hpg; injection Hpg as <-; apply Hno|eapply Hres; eauto].
    Qed.
    Lemma walkParent_st h b stored c : at_ G h b ->
      exists res, walkParent (S (length st)) st b stored c = Some res /\
        match res with
        | Some (p, o) => parent_of h p o c
        | None => forall L1 L2 p pg k, nth_error (lv G) h = Some (L1 ++ b :: L2) ->
            In p (b :: L2) -> get st p = Some pg -> ~ In (k, c) (p_downs pg)
        end.
    Proof.
      intro Hat. destruct (at_split G _ _ Hat) as (L1 & L2 & HL).
      destruct (walkParent_spec (S (length st)) h L1 b L2 stored c HL) as (res & Hw & Hres).
      - pose proof (concat_bound _ _ _ _ _ _ _ _ _ HI) as Hb.
        apply nth_error_split in HL as (l1 & l2 & E & _). rewrite E, concat_app, app_length in Hb. simpl in Hb.
        rewrite app_length, app_length in Hb. simpl in Hb. lia.
      - exists res. split; [exact Hw|]. destruct res as [[p o]|]; [exact Hres|].
        intros M1 M2 p pg k HM Hp. rewrite HL in HM. injection HM as HM.
        assert (M2 = L2) as ->; [|eapply Hres; eauto].
        pose proof (level_nodup _ _ _ _ _ _ _ _ _ HI _ _ HL) as N. clear - HM N.
        revert M1 HM. induction L1 as [|a L1 IH]; intros M1 HM; destruct M1 as [|m M1]; cbn [app] in *.
        + congruence.
        + injection HM as -> HM. exfalso. inversion N; subst. apply H1. apply in_app_iff. right; left; reflexivity.
        + injection HM as -> HM. exfalso. inversion N; subst. apply H1. apply in_app_iff. right; left; reflexivity.
        + injection HM as -> HM. inversion N; subst. eauto.
    Qed.

    (** a downlink's target sits one level below *)
    Lemma down_level h p pg k c : at_ G h p -> get st p = Some pg -> In (k, c) (p_downs pg) ->
      exists h', h = S h' /\ at_ G h' c.
    Proof.
      intros Hat Hg Hin. destruct (page_facts cmp ifit lbound ok fit tight st root G HI _ _ _ Hat Hg) as (_ & _ & _ & _ & _ & Hb).
      destruct h as [|h'].
      - destruct Hb as (_ & E & _). rewrite E in Hin. destruct Hin.
      - exists h'. split; [reflexivity|]. destruct Hb as (_ & _ & Hch & _). rewrite Forall_forall in Hch. apply (Hch _ Hin).
    Qed.
    Lemma parent_level h h' p o c : parent_of h' p o c -> at_ G h c -> h' = S h.
    Proof.
      intros (Hat & pg & k & Hg & _ & Hn) Hc. apply nth_error_In in Hn.
      destruct (down_level _ _ _ _ _ Hat Hg Hn) as (h2 & -> & H2). f_equal.
      exact (at_inj _ _ _ _ _ _ _ _ _ HI _ _ _ H2 Hc).
    Qed.

    Definition has_parent (h c : nat) : Prop :=
      exists p pg k, at_ G (S h) p /\ get st p = Some pg /\ In (k, c) (p_downs pg).

    Lemma findParentsLoop_spec fuel : forall h' b L h c,
      nth_error (lv G) h' = Some (b :: L) -> h' < fuel -> at_ G h c -> (has_parent h c -> S h <= h') -> h' < top G ->
      exists res, findParentsLoop fuel st root b c = Some res /\
        match res with
        | Some s => exists p o, s = [(p, o); (root, 0)] /\ parent_of (S h) p o c /\ p <> root
        | None => ~ has_parent h c
        end.
    Proof.
      induction fuel as [|f IH]; intros h' b L h c HL Hf Hc Hp Ht; [lia|].
      assert (Hat : at_ G h' b) by (exists (b :: L); split; [exact HL|left; reflexivity]).
      destruct (page_get cmp ifit lbound ok fit tight st root G HI _ _ Hat) as [pg Hg].
      cbn [findParentsLoop]. rewrite Hg.
      destruct (page_facts cmp ifit lbound ok fit tight st root G HI _ _ _ Hat Hg) as (Hleaf & _ & _ & _ & _ & Hb).
      rewrite Hleaf. destruct h' as [|h']; cbn [Nat.eqb].
      { exists None. split; [reflexivity|]. intro H. apply Hp in H. lia. }
      destruct Hb as (_ & _ & Hch & _ & _ & [k0 lm] & d & Ed & Es). rewrite Ed.
      rewrite Ed in Hch. apply Forall_inv in Hch. cbn [snd] in Hch, Es.
      destruct (walkParent_st _ b 0 c Hat) as (res & Hw & Hres). rewrite Hw. destruct res as [[p o]|].
      - eexists. split; [reflexivity|]. exists p, o. split; [reflexivity|].
        pose proof (parent_level _ _ _ _ _ Hres Hc) as El. rewrite El in Hres. split; [exact Hres|].
        intros ->. destruct Hres as [Hpo _]. apply (at_root_top _ _ _ _ _ _ _ _ _ HI) in Hpo. lia.
      - assert (Hne : has_parent h c -> S h <> S h').
        { intros (p & pp & k & Hpa & Hpg & Hpin) E. rewrite E in Hpa. destruct Hpa as (L' & HL' & Hin). rewrite HL in HL'. injection HL' as <-.
          exact (Hres [] L p pp k HL Hin Hpg Hpin). }
        assert (Es0 : slo G b = BMin) by exact (first_slo _ _ _ _ _ _ _ _ _ HI _ _ _ HL).
        rewrite Es0 in Es. destruct (at_split G _ _ Hch) as (M1 & M2 & HM).
        pose proof (first_only cmp OK ifit lbound ok fit tight st root G HI _ _ _ _ HM (eq_sym Es)) as ->.
        apply (IH h' lm M2 h c HM); [lia|exact Hc| |lia]. intro H. specialize (Hp H). specialize (Hne H). lia.
    Qed.

    Lemma rumFindParents_spec h c : at_ G h c -> c <> root ->
      exists res, rumFindParents st root c = Some res /\
        match res with
        | Some s => exists p o rest, s = (p, o) :: rest /\ parent_of (S h) p o c /\
            ((p = root /\ rest = []) \/ (p <> root /\ rest = [(root, 0)]))
        | None => ~ has_parent h c
        end.
    Proof.
      intros Hc Hcr.
      pose proof (at_root _ _ _ _ _ _ _ _ _ HI) as Hr.
      destruct (page_get cmp ifit lbound ok fit tight st root G HI _ _ Hr) as [pg Hg].
      unfold rumFindParents. rewrite Hg. destruct (findChildPtr pg c 0) as [o|] eqn:Ef.
      - apply findChildPtr_some in Ef as (Ho & k & Hk). eexists. split; [reflexivity|]. exists root, o, []. split; [reflexivity|].
        assert (Hpo : parent_of (top G) root o c) by (split; [exact Hr|eauto]).
        rewrite <- (parent_level _ _ _ _ _ Hpo Hc). split; [exact Hpo|left; auto].
      - pose proof (findChildPtr_none _ _ _ Ef) as Hno.
        assert (Htop : has_parent h c -> top G <> S h).
        { intros (p & pp & k & Hpa & Hpg & Hpin) E. rewrite <- E in Hpa.
          apply (at_top _ _ _ _ _ _ _ _ _ HI) in Hpa. subst p. rewrite Hg in Hpg. injection Hpg as <-. exact (Hno k Hpin). }
        pose proof (at_le_top G _ _ Hc) as Hlc.
        assert (Htc : top G <> h).
        { intro E. rewrite <- E in Hc. apply Hcr. exact (at_top _ _ _ _ _ _ _ _ _ HI _ Hc). }
        destruct (top G) as [|t] eqn:Et; [lia|].
        destruct (page_facts cmp ifit lbound ok fit tight st root G HI _ _ _ Hr Hg) as (_ & _ & _ & _ & _ & Hb).
        destruct Hb as (_ & _ & Hch & _ & _ & [k0 lm] & d & Ed & Es). rewrite Ed.
        rewrite Ed in Hch. apply Forall_inv in Hch. cbn [snd] in Hch, Es.
        rewrite (root_slo _ _ _ _ _ _ _ _ _ HI) in Es. destruct (at_split G _ _ Hch) as (M1 & M2 & HM).
        pose proof (first_only cmp OK ifit lbound ok fit tight st root G HI _ _ _ _ HM (eq_sym Es)) as ->.
        destruct (findParentsLoop_spec (S (length st)) t lm M2 h c HM) as (res & Hf & Hpo).
        + pose proof (levels_le cmp ifit lbound ok fit tight st root G HI) as Hl. unfold top in Et. lia.
        + exact Hc.
        + intro H. specialize (Htop H). destruct H as (p & pp & k & Hpa & _). pose proof (at_le_top G _ _ Hpa). lia.
        + lia.
        + exists res. split; [exact Hf|]. destruct res as [s|]; [|exact Hpo].
          destruct Hpo as (p1 & o1 & -> & Hpo & Hn). exists p1, o1, [(root, 0)]. auto.
    Qed.

    (** the stack a parent search may start from: pages of the tree, ending in the root *)
    Fixpoint wst (b : nat) (stack : list (nat * nat)) : Prop :=
      match stack with
      | [] => b = root
      | (p, _) :: up => b <> root /\ (exists h, at_ G h p) /\ wst p up
      end.

    Lemma wst_of_stack_ok : forall stack h b, at_ G h b -> stack_ok G h stack -> wst b stack.
    Proof.
      induction stack as [|[p o] up IH]; intros h b Hat Hs; cbn [stack_ok wst] in *.
      - subst h. exact (at_top _ _ _ _ _ _ _ _ _ HI _ Hat).
      - destruct Hs as (Hlt & Hp & Hs). split; [exact (at_not_root _ _ _ _ _ _ _ _ _ HI _ _ Hat Hlt)|].
        split; [eauto|]. eapply IH; eauto.
    Qed.

    (** the search finds a parent whenever there is one *)
    Lemma findParent_spec h c up : at_ G h c -> c <> root -> wst c up ->
      exists res, findParent st root c up = Some res /\
        match res with
        | Some s => exists p o rest, s = (p, o) :: rest /\ parent_of (S h) p o c /\ wst p rest
        | None => ~ has_parent h c
        end.
    Proof.
      intros Hc Hcr Hw. destruct up as [|[pb off] up]; cbn [wst] in Hw; [congruence|].
      destruct Hw as (_ & (h' & Hpb) & Hw). cbn [findParent].
      destruct (walkParent_st h' pb off c Hpb) as (res & Hwp & Hres). rewrite Hwp. destruct res as [[p o]|].
      - eexists. split; [reflexivity|]. exists p, o, up. split; [reflexivity|]. pose proof (parent_level _ _ _ _ _ Hres Hc) as ->. split; [exact Hres|].
        destruct Hres as [Hpa _]. destruct up as [|[q oq] up]; cbn [wst] in *.
        + subst pb. apply (at_root_top _ _ _ _ _ _ _ _ _ HI) in Hpb. rewrite Hpb in Hpa.
          exact (at_top _ _ _ _ _ _ _ _ _ HI _ Hpa).
        + destruct Hw as (Hnr & Hq & Hw). split; [|split; [exact Hq|exact Hw]].
          intros ->. apply (at_root_top _ _ _ _ _ _ _ _ _ HI) in Hpa. rewrite Hpa in Hpb.
          apply Hnr. exact (at_top _ _ _ _ _ _ _ _ _ HI _ Hpb).
      - destruct (rumFindParents_spec h c Hc Hcr) as (res & Hf & Hrest).
        exists res. split; [exact Hf|]. destruct res as [s|]; [|exact Hrest].
        destruct Hrest as (p & o & rest & -> & Hpo & Hrest). exists p, o, rest. split; [reflexivity|]. split; [exact Hpo|].
        destruct Hrest as [[-> ->]|[Hn ->]]; cbn [wst]; [reflexivity|].
        split; [exact Hn|]. split; [|reflexivity]. exists (top G). exact (at_root _ _ _ _ _ _ _ _ _ HI).
    Qed.
  End State.
End Parent.
