(** Trees that grow while a process reads them: the ghost state of every moment, and the descent of
    ScanConc.v.  Proof file. *)
From Verif Require Import Ord BTree BTreeInv BTreeFind BTreeIns ScanConc ScanConcSpec.
From Coq Require Import List ZArith Bool Arith Lia.
Import ListNotations.

(** ** induction along four counters *)
Definition lex4 (a b c d a' b' c' d' : nat) : Prop :=
  a' < a \/ (a' <= a /\ (b' < b \/ (b' <= b /\ (c' < c \/ (c' <= c /\ d' < d))))).
Lemma lex4_ind {X} (P : X -> Prop) (f1 f2 f3 f4 : X -> nat) :
  (forall x, (forall y, lex4 (f1 x) (f2 x) (f3 x) (f4 x) (f1 y) (f2 y) (f3 y) (f4 y) -> P y) -> P x) -> forall x, P x.
Proof.
  intro H.
  assert (K : forall n1 n2 n3 n4 x, f1 x = n1 -> f2 x = n2 -> f3 x = n3 -> f4 x = n4 -> P x).
  { induction n1 as [n1 I1] using lt_wf_ind. induction n2 as [n2 I2] using lt_wf_ind.
    induction n3 as [n3 I3] using lt_wf_ind. induction n4 as [n4 I4] using lt_wf_ind. intros x E1 E2 E3 E4.
    apply H. intros y L. rewrite E1, E2, E3, E4 in L. unfold lex4 in L.
    destruct (Nat.eq_dec (f1 y) n1) as [D1|D1]; [|apply (I1 (f1 y) ltac:(lia) _ _ _ y eq_refl eq_refl eq_refl eq_refl)].
    destruct (Nat.eq_dec (f2 y) n2) as [D2|D2]; [|apply (I2 (f2 y) ltac:(lia) _ _ y D1 eq_refl eq_refl eq_refl)].
    destruct (Nat.eq_dec (f3 y) n3) as [D3|D3]; [|apply (I3 (f3 y) ltac:(lia) _ y D1 D2 eq_refl eq_refl)].
    apply (I4 (f4 y) ltac:(lia) y D1 D2 D3 eq_refl). }
  intro x. eapply K; reflexivity.
Qed.

(** Length of what follows [b] in [L]. *)
Fixpoint after (b : nat) (L : list nat) : nat :=
  match L with [] => 0 | c :: r => if c =? b then length r else after b r end.
Lemma after_mid b L1 L2 : ~ In b L1 -> after b (L1 ++ b :: L2) = length L2.
Proof.
  induction L1 as [|c L1 IH]; intro H; cbn [app after].
  - rewrite Nat.eqb_refl. reflexivity.
  - destruct (Nat.eqb_spec c b) as [->|]; [destruct H; left; reflexivity|]. apply IH. intro Hi. apply H. right. exact Hi.
Qed.

Section Moments.
  Context {T : Type}.
  Variable cmp : T -> T -> Z.
  Hypothesis OK : total_cmp cmp.
  Variable ifit : list (T * nat) -> Prop.
  Variable lbound : bool.
  Variable ok : T -> Prop.
  Variable fit : list T -> Prop.
  Variable tight : bool.
  Variable root : nat.
  Notation store := (list (page T)).
  Notation Inv := (Inv cmp ifit lbound ok fit).
  Notation grows R := (grows cmp ifit lbound ok fit R).
  Notation blt := (blt cmp).
  Notation in_range := (in_range cmp).

  Lemma grows_inv (R : list T -> list T -> Prop) st G tr G' : grows R tight root st G tr G' -> Inv tight st root G -> Inv tight (last tr st) root G'.
  Proof. induction 1 as [|st G s Gs tr G' HI He Hr Hg IH]; intro H; [exact H|]. rewrite last_cons_eq. apply IH. exact HI. Qed.
  Lemma grows_firstn (R : list T -> list T -> Prop) n : forall st G tr G', grows R tight root st G tr G' ->
    exists Gn, grows R tight root st G (firstn n tr) Gn.
  Proof.
    induction n as [|n IH]; intros st G tr G' H; [exists G; constructor|].
    inversion H as [|? ? s Gs tr' ? HI He Hr Hg]; subst; [exists G'; constructor|].
    destruct (IH _ _ _ _ Hg) as [Gn Hn]. exists Gn. cbn [firstn]. econstructor; eauto.
  Qed.

  (** The ghost state of each state. *)
  Lemma grows_ghosts (R : list T -> list T -> Prop) : (forall C, R C C) -> (forall C C' C'', R C C' -> R C' C'' -> R C C'') ->
    forall st G tr G', Inv tight st root G -> grows R tight root st G tr G' ->
    exists Gl, length Gl = S (length tr) /\ nth_error Gl 0 = Some G /\
      (forall i s g, nth_error (st :: tr) i = Some s -> nth_error Gl i = Some g -> Inv tight s root g) /\
      (forall i j s s' g g', i <= j -> nth_error (st :: tr) i = Some s -> nth_error (st :: tr) j = Some s' ->
         nth_error Gl i = Some g -> nth_error Gl j = Some g' -> evolve root g g' /\ R (contents s g) (contents s' g')).
  Proof.
    intros Rr Rt st G tr G' HI0 H. revert HI0. induction H as [st G|st G s Gs tr G' HI He Hr Hg IH]; intro HI0.
    - exists [G]. split; [reflexivity|]. split; [reflexivity|]. split.
      + intros [|i] s g E1 E2; cbn in E1, E2; [|destruct i; discriminate]. injection E1 as <-. injection E2 as <-. exact HI0.
      + intros [|i] [|j] s s' g g' L E1 E2 E3 E4; cbn in E1, E2, E3, E4; try (destruct i; discriminate); try (destruct j; discriminate).
        injection E1 as <-. injection E2 as <-. injection E3 as <-. injection E4 as <-. split; [apply evolve_refl|apply Rr].
    - destruct (IH HI) as (Gl & HL & H0 & HIs & HR). exists (G :: Gl). split; [cbn; lia|]. split; [reflexivity|]. split.
      + intros [|i] s' g E1 E2; [injection E1 as <-; injection E2 as <-; exact HI0|]. exact (HIs i s' g E1 E2).
      + intros [|i] [|j] s1 s2 g g' L E1 E2 E3 E4; [| |lia|].
        * cbn in E1, E2, E3, E4. injection E1 as <-. injection E2 as <-. injection E3 as <-. injection E4 as <-. split; [apply evolve_refl|apply Rr].
        * cbn in E1, E3. injection E1 as <-. injection E3 as <-.
          destruct (HR 0 j s s2 Gs g' ltac:(lia) eq_refl E2 H0 E4) as [A B]. split; [eapply evolve_trans; eauto|eapply Rt; eauto].
        * exact (HR i j s1 s2 g g' ltac:(lia) E1 E2 E3 E4).
  Qed.

  (** ** what the page reads of one process see *)
  Record moments (R : list T -> list T -> Prop) (sched : nat -> store) (G : nat -> @ghost T) (idx : nat -> nat) (N : nat) : Prop := {
    m_inv : forall t, Inv tight (sched t) root (G t);
    m_evolve : forall t t', t <= t' -> evolve root (G t) (G t');
    m_rows : forall t t', t <= t' -> R (contents (sched t) (G t)) (contents (sched t') (G t'));
    m_mono : forall t t', t <= t' -> idx t <= idx t';
    m_bound : forall t, idx t <= N;
    m_same : forall t t', idx t = idx t' -> sched t = sched t' /\ G t = G t' }.

  Lemma moments_of (R : list T -> list T -> Prop) : (forall C, R C C) -> (forall C C' C'', R C C' -> R C' C'' -> R C C'') ->
    forall st G tr G' sched, Inv tight st root G -> grows R tight root st G tr G' -> observed (st :: tr) sched ->
    exists Gt idx N, moments R sched Gt idx N /\ evolve root G (Gt 0) /\ R (contents st G) (contents (sched 0) (Gt 0)) /\
      forall t, (Inv tight (last tr st) root G' /\ R (contents (sched t) (Gt t)) (contents (last tr st) G')) /\ In (sched t) (st :: tr).
  Proof.
    intros Rr Rt st G tr G' sched HI Hg (tau & Hm & Ht).
    destruct (grows_ghosts R Rr Rt st G tr G' HI Hg) as (Gl & HL & H0 & HIs & HR).
    assert (Hb : forall t, tau t < S (length tr)) by (intro t; pose proof (nth_some_lt _ _ _ (Ht t)) as L; exact L).
    set (Gt := fun t => nth (tau t) Gl G).
    assert (HG : forall t, nth_error Gl (tau t) = Some (Gt t)) by (intro t; unfold Gt; apply nth_error_nth'; rewrite HL; apply Hb).
    assert (HIl : Inv tight (last tr st) root G') by exact (grows_inv R st G tr G' Hg HI).
    (* the last ghost *)
    assert (Hlast : forall t, R (contents (sched t) (Gt t)) (contents (last tr st) G')).
    {
      intro t. destruct (nth_error Gl (length tr)) as [gl|] eqn:El; [|apply nth_error_None in El; lia].
      assert (Es : nth_error (st :: tr) (length tr) = Some (last tr st)).
      { clear. revert st. induction tr as [|s tr IH]; intro st; [reflexivity|]. rewrite last_cons_eq. exact (IH s). }
      assert (Hle : tau t <= length tr) by (pose proof (nth_some_lt _ _ _ (Ht t)) as L; cbn in L; lia).
      destruct (HR (tau t) (length tr) _ _ _ _ Hle (Ht t) Es (HG t) El) as [_ A].
      (* gl and G' describe the same tree *)
      enough (R (contents (last tr st) gl) (contents (last tr st) G')) by (eapply Rt; eauto).
      assert (E : contents (last tr st) gl = contents (last tr st) G'); [|rewrite E; apply Rr].
      assert (I1 : Inv tight (last tr st) root gl) by (exact (HIs _ _ _ Es El)).
      assert (I2 : Inv tight (last tr st) root G') by exact (grows_inv R st G tr G' Hg HI).
      pose proof (scan_spec cmp OK ifit lbound ok fit tight _ _ _ I1) as S1.
      pose proof (scan_spec cmp OK ifit lbound ok fit tight _ _ _ I2) as S2. rewrite S1 in S2. injection S2 as E. exact E. }
    exists Gt, tau, (length tr). split; [|split; [|split]].
    - constructor.
      + intro t. exact (HIs _ _ _ (Ht t) (HG t)).
      + intros t t' L. apply (HR (tau t) (tau t') _ _ _ _ (Hm _ _ L) (Ht t) (Ht t') (HG t) (HG t')).
      + intros t t' L. apply (HR (tau t) (tau t') _ _ _ _ (Hm _ _ L) (Ht t) (Ht t') (HG t) (HG t')).
      + exact Hm.
      + intro t. specialize (Hb t). lia.
      + intros t t' E. split; [|unfold Gt; rewrite E; reflexivity]. pose proof (Ht t) as A. rewrite E, (Ht t') in A. congruence.
    - exact (proj1 (HR 0 (tau 0) st (sched 0) G (Gt 0) ltac:(lia) eq_refl (Ht 0) H0 (HG 0))).
    - exact (proj2 (HR 0 (tau 0) st (sched 0) G (Gt 0) ltac:(lia) eq_refl (Ht 0) H0 (HG 0))).
    - intro t. split; [auto|]. eapply nth_error_In. exact (Ht t).
  Qed.

  Section Descend.
    Variable rbound : page T -> T.
    Variable locate : bool -> list (T * nat) -> T -> nat.
    Hypothesis Hrb : rbound_ok cmp ifit lbound ok fit rbound.
    Hypothesis Hloc : locate_ok cmp lbound locate.
    Context (R : list T -> list T -> Prop) (sched : nat -> store) (G : nat -> @ghost T) (idx : nat -> nat) (N : nat).
    Hypothesis M : moments R sched G idx N.
    Notation HI := (m_inv R sched G idx N M).

    (** The place of a page on its level. *)
    Definition rightOf (t h b : nat) : nat := match nth_error (lv (G t)) h with Some L => after b L | None => 0 end.
    Lemma rightOf_next t h b pg r : at_ (G t) h b -> get (sched t) b = Some pg -> p_right pg = Some r -> rightOf t h r < rightOf t h b.
    Proof.
      intros Hat Hg Er. destruct (at_split _ _ _ Hat) as (L1 & L2 & HL).
      pose proof (I_links _ _ _ _ _ _ _ _ _ (HI t) _ _ HL) as Hl. apply links_at in Hl as (pg' & Hg' & Hr' & _).
      rewrite Hg in Hg'. injection Hg' as <-. rewrite Er in Hr'. destruct L2 as [|r' L2]; [discriminate|]. cbn in Hr'. injection Hr' as ->.
      pose proof (level_nodup _ _ _ _ _ _ _ _ _ (HI t) _ _ HL) as ND. unfold rightOf. rewrite HL.
      apply nodup_app in ND as (N1 & N2 & D). inversion N2 as [|? ? Hn N3]; subst.
      rewrite after_mid by (intro Hi; exact (D b Hi (or_introl eq_refl))).
      change (L1 ++ b :: r' :: L2) with (L1 ++ [b] ++ r' :: L2). rewrite app_assoc, after_mid; [cbn; lia|].
      intro Hi. apply in_app_iff in Hi as [Hi|[->|[]]]; [exact (D r' Hi (or_intror (or_introl eq_refl)))|apply Hn; left; reflexivity].
    Qed.
    Lemma right_not_root t h b pg r : at_ (G t) h b -> b <> root -> get (sched t) b = Some pg -> p_right pg = Some r -> r <> root.
    Proof.
      intros Hat Hn Hg Er ->. pose proof (right_at _ _ _ _ _ _ _ _ _ (HI t) _ _ _ _ Hat Hg Er) as Hr.
      assert (h = top (G t)) as -> by exact (at_inj _ _ _ _ _ _ _ _ _ (HI t) _ _ _ Hr (at_root _ _ _ _ _ _ _ _ _ (HI t))).
      apply Hn. eapply at_top; eauto. exact (HI t).
    Qed.
    Lemma child_not_root t h c b : at_ (G t) h c -> at_ (G t) (S h) b -> c <> root.
    Proof.
      intros Hc Hb ->. pose proof (at_inj _ _ _ _ _ _ _ _ _ (HI t) _ _ _ Hc (at_root _ _ _ _ _ _ _ _ _ (HI t))).
      pose proof (at_le_top _ _ _ Hb). lia.
    Qed.

    Lemma findLeafC_spec x : forall p : nat * nat * nat,
      let '(t, h, b) := p in at_ (G t) h b -> blt (slo (G t) b) (BAt x) ->
      exists fuel t' b', findLeafC cmp rbound locate sched fuel t root b x = DLeaf t' b' /\ t <= t' /\
        at_ (G t') 0 b' /\ in_range (slo (G t') b') (shi (G t') b') x.
    Proof.
      apply (lex4_ind _ (fun p : nat * nat * nat => N - idx (fst (fst p))) (fun p => snd (fst p)) (fun p => rightOf (fst (fst p)) (snd (fst p)) (snd p)) (fun _ => 0)).
      intros [[t h] b] IH. cbn [fst snd] in IH. intros Hat Hx.
      destruct (page_get _ _ _ _ _ _ _ _ _ (HI t) _ _ Hat) as [pg Hg].
      destruct (page_facts _ _ _ _ _ _ _ _ _ (HI t) _ _ _ Hat Hg) as (Hleaf & _).
      assert (Hstep : forall h' b', at_ (G t) h' b' -> b' <> root -> blt (slo (G t) b') (BAt x) ->
        (h' < h \/ (h' = h /\ rightOf t h b' < rightOf t h b)) ->
        exists fuel t' b'', findLeafC cmp rbound locate sched fuel (S t) root b' x = DLeaf t' b'' /\ S t <= t' /\
          at_ (G t') 0 b'' /\ in_range (slo (G t') b'') (shi (G t') b'') x).
      { intros h' b' Ha Hn Hb Hd. destruct (m_evolve _ _ _ _ _ M t (S t) ltac:(lia) _ _ Ha Hn) as [Ha' Es].
        apply (IH (S t, h', b')); [|exact Ha'|rewrite Es; exact Hb]. cbn [fst snd].
        pose proof (m_mono _ _ _ _ _ M t (S t) ltac:(lia)). pose proof (m_bound _ _ _ _ _ M (S t)).
        destruct (Nat.eq_dec (idx t) (idx (S t))) as [E|E]; [|left; lia].
        destruct (m_same _ _ _ _ _ M _ _ E) as [_ EG]. right. split; [lia|]. unfold rightOf in *. rewrite <- EG.
        destruct Hd as [Hd|[-> Hd]]; [left; exact Hd|]. right. split; [lia|]. left. exact Hd. }
      assert (Hmr : b = root -> moveRight cmp (@p_bound T) pg x = false).
      { intros ->. unfold moveRight. destruct (root_right _ _ _ _ _ _ _ _ _ (HI t) pg Hg) as [-> _]. reflexivity. }
      pose proof (moveRight_eq cmp OK ifit lbound ok fit rbound Hrb _ _ _ _ (HI t) h b pg x Hat Hg) as Emr.
      destruct (moveRight cmp (@p_bound T) pg x) eqn:Em.
      - assert (Hbr : b <> root) by (intro E; specialize (Hmr E); discriminate).
        destruct (step_right cmp OK ifit lbound ok fit _ _ _ _ (HI t) _ _ _ _ Hat Hg Hx Em) as (r & Er & Hrat & Hrx).
        pose proof (right_not_root t h b pg r Hat Hbr Hg Er) as Hrn.
        destruct (Hstep h r Hrat Hrn Hrx) as (fuel & t' & b' & Hf & Ht' & Ha' & Hr').
        { right. split; [reflexivity|]. eapply rightOf_next; eauto. }
        exists (S fuel), t', b'. split; [|split; [lia|auto]]. cbn [findLeafC]. rewrite Hg, Emr.
        replace (b =? root) with false by (symmetry; apply Nat.eqb_neq; exact Hbr). cbn [negb andb]. rewrite Er.
        destruct (m_evolve _ _ _ _ _ M t (S t) ltac:(lia) _ _ Hrat Hrn) as [Hra _].
        destruct (page_get _ _ _ _ _ _ _ _ _ (HI (S t)) _ _ Hra) as [pg' Hg'].
        destruct (page_facts _ _ _ _ _ _ _ _ _ (HI (S t)) _ _ _ Hra Hg') as (Hleaf' & Hdel & _).
        rewrite Hg', Hleaf, Hleaf', Hdel, eqb_reflx. exact Hf.
      - destruct h as [|h].
        + exists 1, t, b. split; [|split; [lia|split; [exact Hat|]]].
          * cbn [findLeafC]. rewrite Hg, Emr, andb_false_r, Hleaf. reflexivity.
          * exact (leaf_target cmp ifit lbound ok fit tight (sched t) root (G t) (HI t) b pg x Hat Hg Hx Em).
        + destruct (step_down cmp OK ifit lbound ok fit locate Hloc _ _ _ _ (HI t) _ _ _ _ Hat Hg Hx (fun _ => Em)) as (k & c & En & Hc & Hcx).
          destruct (Hstep h c Hc (child_not_root t h c b Hc Hat) Hcx) as (fuel & t' & b' & Hf & Ht' & Ha' & Hr'); [left; lia|].
          exists (S fuel), t', b'. split; [|split; [lia|auto]]. cbn [findLeafC]. rewrite Hg, Emr, andb_false_r, Hleaf. cbn [Nat.eqb].
          rewrite En. exact Hf.
    Qed.
    Lemma findLeafC_root x :
      exists fuel t b, findLeafC cmp rbound locate sched fuel 0 root root x = DLeaf t b /\
        at_ (G t) 0 b /\ in_range (slo (G t) b) (shi (G t) b) x.
    Proof.
      destruct (findLeafC_spec x (0, top (G 0), root)) as (fuel & t & b & Hf & _ & Ha & Hr).
      - exact (at_root _ _ _ _ _ _ _ _ _ (HI 0)).
      - rewrite (root_slo _ _ _ _ _ _ _ _ _ (HI 0)). unfold BTreeInv.blt. cbn. lia.
      - eauto 6.
    Qed.

    (** The leftmost leaf. *)
    Lemma leftmostC_spec : forall h t b, at_ (G t) h b -> slo (G t) b = BMin ->
      exists t' b', leftmostC sched (S h) t b = DLeaf t' b' /\ t <= t' /\ at_ (G t') 0 b' /\ slo (G t') b' = BMin /\
        (b' = root -> t' = t /\ b = root /\ h = 0).
    Proof.
      induction h as [|h IH]; intros t b Hat Hs.
      - destruct (page_get _ _ _ _ _ _ _ _ _ (HI t) _ _ Hat) as [pg Hg].
        destruct (page_facts _ _ _ _ _ _ _ _ _ (HI t) _ _ _ Hat Hg) as (Hleaf & _).
        exists t, b. split; [|split; [lia|split; [exact Hat|split; [exact Hs|auto]]]]. cbn [leftmostC]. rewrite Hg, Hleaf. reflexivity.
      - destruct (page_get _ _ _ _ _ _ _ _ _ (HI t) _ _ Hat) as [pg Hg].
        destruct (page_facts _ _ _ _ _ _ _ _ _ (HI t) _ _ _ Hat Hg) as (Hleaf & _ & _ & _ & _ & Hbody).
        destruct Hbody as (_ & _ & Hch & _ & _ & [k c] & d & Ed & Es). rewrite Ed in Hch. apply Forall_inv in Hch. cbn in Hch, Es.
        pose proof (child_not_root t h c b Hch Hat) as Hcr.
        destruct (m_evolve _ _ _ _ _ M t (S t) ltac:(lia) _ _ Hch Hcr) as [Hc' Ec].
        destruct (IH (S t) c Hc' ltac:(congruence)) as (t' & b' & Hl & Ht & Ha & Hb & Hr).
        exists t', b'. split; [|split; [lia|split; [exact Ha|split; [exact Hb|]]]].
        + cbn [leftmostC]. rewrite Hg, Hleaf. cbn [Nat.eqb]. rewrite Ed. exact Hl.
        + intro E. destruct (Hr E) as (_ & Ec' & _). congruence.
    Qed.
  End Descend.
End Moments.
