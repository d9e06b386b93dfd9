(** Comparator vocabulary used in specifications: total orders given by a C-style
    three-way comparison, sortedness, and generic list facts. *)
From Coq Require Export List ZArith Lia Bool Arith Sorted Permutation.
Export ListNotations.
Local Open Scope Z_scope.

(** A three-way comparison function that is a total preorder. *)
Record total_cmp {T} (cmp : T -> T -> Z) : Prop := {
  tc_refl : forall x, cmp x x = 0;
  tc_anti : forall x y, cmp x y < 0 <-> 0 < cmp y x;
  tc_trans : forall x y z, cmp x y <= 0 -> cmp y z <= 0 -> cmp x z <= 0
}.

(** Strictly ascending. *)
Definition ssorted {T} (cmp : T -> T -> Z) (l : list T) : Prop :=
  StronglySorted (fun x y => cmp x y < 0) l.

Section Facts.
  Context {T : Type} (cmp : T -> T -> Z) (OK : total_cmp cmp).

  Lemma cmp_sym_eq x y : cmp x y = 0 -> cmp y x = 0.
  Proof.
    intro H. destruct (Z.lt_trichotomy (cmp y x) 0) as [L|[E|G]]; [|exact E|].
    - apply (tc_anti _ OK) in L. lia.
    - apply (tc_anti _ OK) in G. lia.
  Qed.
  Lemma cmp_le_sym x y : cmp x y <= 0 <-> 0 <= cmp y x.
  Proof.
    pose proof (tc_anti _ OK x y). pose proof (tc_anti _ OK y x).
    split; intro L.
    - destruct (Z.eq_dec (cmp x y) 0) as [E|N]; [apply cmp_sym_eq in E; lia|lia].
    - destruct (Z.eq_dec (cmp y x) 0) as [E|N]; [apply cmp_sym_eq in E; lia|lia].
  Qed.
  Lemma cmp_lt_le_trans x y z : cmp x y < 0 -> cmp y z <= 0 -> cmp x z < 0.
  Proof.
    intros L1 L2.
    destruct (Z.lt_ge_cases (cmp x z) 0) as [L|G]; [exact L|exfalso].
    assert (G' : cmp z x <= 0) by (apply cmp_le_sym; lia).
    assert (cmp y x <= 0) by (eapply (tc_trans _ OK); eauto).
    apply (tc_anti _ OK) in L1. lia.
  Qed.
  Lemma cmp_le_lt_trans x y z : cmp x y <= 0 -> cmp y z < 0 -> cmp x z < 0.
  Proof.
    intros L1 L2.
    destruct (Z.lt_ge_cases (cmp x z) 0) as [L|G]; [exact L|exfalso].
    assert (G' : cmp z x <= 0) by (apply cmp_le_sym; lia).
    assert (cmp z y <= 0) by (eapply (tc_trans _ OK); eauto).
    apply (tc_anti _ OK) in L2. lia.
  Qed.
  Lemma cmp_lt_trans x y z : cmp x y < 0 -> cmp y z < 0 -> cmp x z < 0.
  Proof. intros L1 L2. eapply cmp_lt_le_trans; [exact L1|lia]. Qed.
  Lemma cmp_gt_lt x y : 0 < cmp x y -> cmp y x < 0.
  Proof. intro H. apply (tc_anti _ OK). exact H. Qed.
  Lemma cmp_lt_gt x y : cmp x y < 0 -> 0 < cmp y x.
  Proof. intro H. apply (tc_anti _ OK). exact H. Qed.
  Lemma cmp_ge_le x y : 0 <= cmp x y -> cmp y x <= 0.
  Proof. intro H. apply cmp_le_sym. exact H. Qed.
  Lemma cmp_eq_l x y z : cmp x y = 0 -> Z.sgn (cmp x z) = Z.sgn (cmp y z).
  Proof.
    intro E. assert (E' := cmp_sym_eq _ _ E).
    destruct (Z.lt_trichotomy (cmp x z) 0) as [L|[Q|G]].
    - assert (cmp y z < 0) by (apply (cmp_le_lt_trans y x z); lia). lia.
    - assert (cmp y z <= 0) by (apply (tc_trans _ OK y x z); lia).
      assert (cmp z y <= 0).
      { apply (tc_trans _ OK z x y); [|lia]. apply cmp_sym_eq in Q. lia. }
      apply cmp_le_sym in H0. lia.
    - assert (L := cmp_gt_lt _ _ G).
      assert (cmp z y < 0) by (apply (cmp_lt_le_trans z x y); lia).
      apply cmp_lt_gt in H. lia.
  Qed.

  Lemma ssorted_inv x l : ssorted cmp (x :: l) -> ssorted cmp l /\ Forall (fun y => cmp x y < 0) l.
  Proof. intro H. inversion H; subst. split; assumption. Qed.
  Lemma ssorted_nil : ssorted cmp [].
  Proof. constructor. Qed.
  Lemma ssorted_cons x l : ssorted cmp l -> Forall (fun y => cmp x y < 0) l -> ssorted cmp (x :: l).
  Proof. intros. constructor; assumption. Qed.

  Lemma ssorted_app l1 l2 :
    ssorted cmp (l1 ++ l2) <->
    ssorted cmp l1 /\ ssorted cmp l2 /\ (forall x y, In x l1 -> In y l2 -> cmp x y < 0).
  Proof.
    induction l1 as [|a l1 IH]; simpl.
    - split; [intro H; repeat split; [constructor|exact H|intros ? ? []]|intros (_ & H & _); exact H].
    - split.
      + intro H. apply ssorted_inv in H as [Hs Hf]. apply IH in Hs as (H1 & H2 & H3).
        rewrite Forall_app in Hf. destruct Hf as [Hf1 Hf2]. repeat split.
        * apply ssorted_cons; assumption.
        * exact H2.
        * intros x y [->|Hx] Hy; [|apply H3; assumption].
          rewrite Forall_forall in Hf2. apply Hf2. exact Hy.
      + intros (H1 & H2 & H3). apply ssorted_inv in H1 as [H1 Hf]. apply ssorted_cons.
        * apply IH. repeat split; auto.
        * apply Forall_app. split; [exact Hf|]. apply Forall_forall. intros y Hy. apply H3; auto.
  Qed.

  (* In a strictly sorted list an element is determined by its cmp-class. *)
  Lemma ssorted_unique l x y : ssorted cmp l -> In x l -> In y l -> cmp x y = 0 -> x = y.
  Proof.
    induction l as [|a l IH]; intros Hs Hx Hy E; [destruct Hx|].
    apply ssorted_inv in Hs as [Hs Hf]. rewrite Forall_forall in Hf.
    destruct Hx as [->|Hx], Hy as [<-|Hy]; auto.
    - specialize (Hf _ Hy). lia.
    - specialize (Hf _ Hx). apply cmp_lt_gt in Hf. lia.
  Qed.

  Lemma ssorted_NoDup l : ssorted cmp l -> NoDup l.
  Proof.
    induction l as [|a l IH]; intro Hs; [constructor|].
    apply ssorted_inv in Hs as [Hs Hf]. constructor; [|apply IH; exact Hs].
    intro Hin. rewrite Forall_forall in Hf. specialize (Hf _ Hin).
    rewrite (tc_refl _ OK) in Hf. lia.
  Qed.

  (* Two strictly sorted lists with the same elements are equal. *)
  Lemma ssorted_ext l1 l2 : ssorted cmp l1 -> ssorted cmp l2 ->
    (forall x, In x l1 <-> In x l2) -> l1 = l2.
  Proof.
    revert l2. induction l1 as [|a l1 IH]; intros l2 H1 H2 Hin.
    - destruct l2 as [|b l2]; [reflexivity|]. exfalso. apply (Hin b). left; reflexivity.
    - destruct l2 as [|b l2]; [exfalso; apply (Hin a); left; reflexivity|].
      apply ssorted_inv in H1 as [H1 F1]. apply ssorted_inv in H2 as [H2 F2].
      rewrite Forall_forall in F1, F2.
      assert (a = b) as ->.
      { destruct (proj1 (Hin a) (or_introl eq_refl)) as [->|Ha]; [reflexivity|].
        destruct (proj2 (Hin b) (or_introl eq_refl)) as [->|Hb]; [reflexivity|].
        specialize (F1 _ Hb). specialize (F2 _ Ha). apply cmp_lt_gt in F2. lia. }
      f_equal. apply IH; auto. intro x. split; intro Hx.
      + destruct (proj1 (Hin x) (or_intror Hx)) as [->|]; [|assumption].
        specialize (F1 _ Hx). rewrite (tc_refl _ OK) in F1. lia.
      + destruct (proj2 (Hin x) (or_intror Hx)) as [->|]; [|assumption].
        specialize (F2 _ Hx). rewrite (tc_refl _ OK) in F2. lia.
  Qed.

  Lemma ssorted_filter (P : T -> bool) l : ssorted cmp l -> ssorted cmp (filter P l).
  Proof.
    induction l as [|a l IH]; intro Hs; [constructor|].
    apply ssorted_inv in Hs as [Hs Hf]. simpl. destruct (P a); [|auto].
    apply ssorted_cons; [auto|]. apply Forall_forall. intros y Hy. apply filter_In in Hy as [Hy _].
    rewrite Forall_forall in Hf. auto.
  Qed.

  Lemma ssorted_firstn n l : ssorted cmp l -> ssorted cmp (firstn n l).
  Proof. intro H. rewrite <- (firstn_skipn n l) in H. apply ssorted_app in H. tauto. Qed.
  Lemma ssorted_skipn n l : ssorted cmp l -> ssorted cmp (skipn n l).
  Proof. intro H. rewrite <- (firstn_skipn n l) in H. apply ssorted_app in H. tauto. Qed.
End Facts.
