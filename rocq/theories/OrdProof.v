(** Proofs: item comparators are total orders; merge of item lists. *)
From Verif Require Import Base Ord.
From Coq Require Import ZifyBool ZifyNat ZifyN.
Local Open Scope Z_scope.

Lemma cip_total : total_cmp rumCompareItemPointers.
Proof.
  constructor; intros; unfold rumCompareItemPointers in *.
  - rewrite !N.eqb_refl. reflexivity.
  - destruct (N.eqb_spec (blk x) (blk y)), (N.eqb_spec (blk y) (blk x)); try lia.
    + destruct (N.eqb_spec (off x) (off y)), (N.eqb_spec (off y) (off x)); try lia.
      destruct (N.ltb_spec (off y) (off x)), (N.ltb_spec (off x) (off y)); lia.
    + destruct (N.ltb_spec (blk y) (blk x)), (N.ltb_spec (blk x) (blk y)); lia.
  - destruct (N.eqb_spec (blk x) (blk y)), (N.eqb_spec (blk y) (blk z)), (N.eqb_spec (blk x) (blk z));
      destruct (N.eqb_spec (off x) (off y)), (N.eqb_spec (off y) (off z)), (N.eqb_spec (off x) (off z));
      destruct (N.ltb_spec (off y) (off x)), (N.ltb_spec (off z) (off y)), (N.ltb_spec (off z) (off x));
      destruct (N.ltb_spec (blk y) (blk x)), (N.ltb_spec (blk z) (blk y)), (N.ltb_spec (blk z) (blk x)); lia.
Qed.

Lemma cip_eq a b : rumCompareItemPointers a b = 0 <-> a = b.
Proof.
  unfold rumCompareItemPointers. destruct a as [ab ao], b as [bb bo]; simpl.
  destruct (N.eqb_spec ab bb); [|destruct (bb <? ab)%N; split; [lia|congruence|lia|congruence]].
  destruct (N.eqb_spec ao bo); [subst; tauto|destruct (bo <? ao)%N; split; [lia|congruence|lia|congruence]].
Qed.

Lemma cip_lt a b : rumCompareItemPointers a b < 0 <->
  (blk a < blk b \/ (blk a = blk b /\ off a < off b))%N.
Proof.
  unfold rumCompareItemPointers.
  destruct (N.eqb_spec (blk a) (blk b)); [destruct (N.eqb_spec (off a) (off b)); [|destruct (N.ltb_spec (off b) (off a))]
    |destruct (N.ltb_spec (blk b) (blk a))]; lia.
Qed.

Lemma cri_total {A} alt (cmpA : A -> A -> Z) : total_cmp cmpA -> total_cmp (compareRumItem alt cmpA).
Proof.
  intro OK. pose proof cip_total as IP.
  destruct alt; [|constructor; intros; unfold compareRumItem in *;
     [apply (tc_refl _ IP)|apply (tc_anti _ IP)|eapply (tc_trans _ IP); eauto]].
  constructor; unfold compareRumItem.
  - intro x. destruct (add x); [rewrite (tc_refl _ OK); simpl|]; apply (tc_refl _ IP).
  - intros x y. destruct (add x) as [u|], (add y) as [v|]; try lia; try apply (tc_anti _ IP).
    pose proof (tc_anti _ OK u v). pose proof (tc_anti _ OK v u).
    pose proof (tc_anti _ IP (ip x) (ip y)).
    destruct (Z.eqb_spec (cmpA u v) 0) as [E|E], (Z.eqb_spec (cmpA v u) 0) as [E'|E'];
      lia.
  - intros x y z. destruct (add x) as [u|], (add y) as [v|], (add z) as [w|]; try lia;
      try (intros; eapply (tc_trans _ IP); eassumption).
    intros H1 H2.
    destruct (Z.eqb_spec (cmpA u v) 0) as [E1|E1].
    + pose proof (cmp_eq_l _ OK _ _ w E1).
      destruct (Z.eqb_spec (cmpA v w) 0) as [E2|E2].
      * replace (cmpA u w =? 0) with true by lia. eapply (tc_trans _ IP); eauto.
      * replace (cmpA u w =? 0) with false by lia. lia.
    + destruct (Z.eqb_spec (cmpA v w) 0) as [E2|E2].
      * assert (cmpA u w < 0) by (eapply (cmp_lt_le_trans _ OK); [|rewrite E2]; lia).
        replace (cmpA u w =? 0) with false by lia. lia.
      * assert (cmpA u w < 0) by (eapply (cmp_lt_trans _ OK u v w); lia).
        replace (cmpA u w =? 0) with false by lia. lia.
Qed.

Section Merge.
  Context {T : Type} (cmp : T -> T -> Z) (OK : total_cmp cmp).

  Lemma merge_nil_l b : rumMergeRumItems cmp [] b = b.
  Proof. destruct b; reflexivity. Qed.
  Lemma merge_nil_r a : rumMergeRumItems cmp a [] = a.
  Proof. destruct a; reflexivity. Qed.
  Lemma merge_cons x a y b : rumMergeRumItems cmp (x :: a) (y :: b) =
    if 0 <? cmp x y then y :: rumMergeRumItems cmp (x :: a) b
    else if cmp x y =? 0 then y :: rumMergeRumItems cmp a b
    else x :: rumMergeRumItems cmp a (y :: b).
  Proof. reflexivity. Qed.

  Lemma merge_incl a : forall b x, In x (rumMergeRumItems cmp a b) -> In x a \/ In x b.
  Proof.
    induction a as [|u a IHa]; intros b; [rewrite merge_nil_l; auto|].
    induction b as [|v b IHb]; intros x Hx; [rewrite merge_nil_r in Hx; auto|].
    rewrite merge_cons in Hx. destruct (0 <? cmp u v).
    - destruct Hx as [->|Hx]; [right; left; reflexivity|].
      apply IHb in Hx. simpl in *. tauto.
    - destruct (cmp u v =? 0).
      + destruct Hx as [->|Hx]; [right; left; reflexivity|]. apply IHa in Hx. simpl. tauto.
      + destruct Hx as [->|Hx]; [left; left; reflexivity|]. apply IHa in Hx. simpl in *. tauto.
  Qed.

  Lemma merge_sorted a : forall b, ssorted cmp a -> ssorted cmp b -> ssorted cmp (rumMergeRumItems cmp a b).
  Proof.
    induction a as [|u a IHa]; intros b Ha Hb; [rewrite merge_nil_l; auto|].
    induction b as [|v b IHb]; [rewrite merge_nil_r; auto|].
    assert (Ha0 := Ha). assert (Hb0 := Hb).
    apply (ssorted_inv cmp) in Ha as [Ha Fa]. apply (ssorted_inv cmp) in Hb as [Hb Fb].
    rewrite Forall_forall in Fa, Fb.
    rewrite merge_cons. destruct (Z.ltb_spec 0 (cmp u v)) as [L|L].
    - apply ssorted_cons; [auto|]. apply Forall_forall. intros y Hy. apply merge_incl in Hy.
      assert (Lvu := cmp_gt_lt _ OK _ _ L).
      destruct Hy as [[->|Hy]|Hy]; auto. eapply (cmp_lt_trans _ OK); eauto.
    - destruct (Z.eqb_spec (cmp u v) 0) as [E|E].
      + apply ssorted_cons; [auto|]. apply Forall_forall. intros y Hy. apply merge_incl in Hy.
        destruct Hy as [Hy|Hy]; auto.
        apply (cmp_le_lt_trans _ OK v u y); auto. rewrite (cmp_sym_eq _ OK _ _ E). lia.
      + apply ssorted_cons; [auto|]. apply Forall_forall. intros y Hy. apply merge_incl in Hy.
        destruct Hy as [Hy|[->|Hy]]; auto; [lia|]. apply (cmp_lt_trans _ OK u v y); auto. lia.
  Qed.

  Lemma merge_keeps_b a : forall b x, In x b -> In x (rumMergeRumItems cmp a b).
  Proof.
    induction a as [|u a IHa]; intros b; [rewrite merge_nil_l; auto|].
    induction b as [|v b IHb]; intros x Hx; [destruct Hx|].
    rewrite merge_cons. destruct (0 <? cmp u v).
    - destruct Hx as [->|Hx]; [left; reflexivity|right; auto].
    - destruct (cmp u v =? 0).
      + destruct Hx as [->|Hx]; [left; reflexivity|right; auto].
      + right. auto.
  Qed.

  Lemma merge_keeps_a a : forall b x, In x a -> (forall y, In y b -> cmp x y <> 0) ->
    In x (rumMergeRumItems cmp a b).
  Proof.
    induction a as [|u a IHa]; intros b; [intros x []|].
    induction b as [|v b IHb]; intros x Hx Hn; [rewrite merge_nil_r; auto|].
    rewrite merge_cons. destruct (0 <? cmp u v).
    - right. apply IHb; auto. intros y Hy. apply Hn. right; exact Hy.
    - destruct (Z.eqb_spec (cmp u v) 0) as [E|E].
      + destruct Hx as [->|Hx]; [exfalso; apply (Hn v); [left; reflexivity|exact E]|].
        right. apply IHa; auto. intros y Hy. apply Hn. right; exact Hy.
      + destruct Hx as [->|Hx]; [left; reflexivity|right; auto].
  Qed.

  (** Elements of the merge: all of [b]; and of [a] exactly those with no equal in [b]. *)
  Lemma merge_spec a b : ssorted cmp a -> ssorted cmp b ->
    ssorted cmp (rumMergeRumItems cmp a b) /\
    (forall x, In x (rumMergeRumItems cmp a b) <->
               In x b \/ (In x a /\ forall y, In y b -> cmp x y <> 0)).
  Proof.
    intros Ha Hb. split; [apply merge_sorted; assumption|].
    intro x. split.
    - intro Hx. destruct (merge_incl a b x Hx) as [Hxa|Hxb]; [|left; exact Hxb].
      destruct (Exists_dec (fun y => cmp x y = 0) b) as [Hex|Hnex].
      { intro y. destruct (Z.eq_dec (cmp x y) 0); auto. }
      + left. apply Exists_exists in Hex as (y & Hy & E).
        assert (x = y) as ->; [|exact Hy].
        apply (ssorted_unique _ OK _ _ _ (merge_sorted a b Ha Hb)); auto.
        apply merge_keeps_b. exact Hy.
      + right. split; [exact Hxa|]. intros y Hy E. apply Hnex. apply Exists_exists. eauto.
    - intros [Hx|[Hx Hn]]; [apply merge_keeps_b|apply merge_keeps_a]; auto.
  Qed.
End Merge.
