(** Proofs: key order and key extraction. *)
From Verif Require Import Base Ord Entries EntriesSpec.
From Coq Require Import Permutation Sorted Lia.
Local Open Scope Z_scope.

Section Cmp.
  Context {K : Type}.
  Lemma entries_total (f : K -> K -> Z) : total_cmp f ->
    total_cmp (fun a b : K * category => rumCompareEntries f (fst a) (snd a) (fst b) (snd b)).
  Proof.
    intros OK. split.
    - intros [k c]. unfold rumCompareEntries. cbn. rewrite Z.eqb_refl. cbn. destruct (negb _); [reflexivity|apply (tc_refl _ OK)].
    - intros [k c] [k' c']. unfold rumCompareEntries. cbn [fst snd].
      destruct c, c'; cbn; try lia. apply (tc_anti _ OK).
    - intros [k c] [k' c'] [k2 c2]. unfold rumCompareEntries. cbn [fst snd].
      destruct c, c', c2; cbn; try lia. apply (tc_trans _ OK).
  Qed.
  Lemma att_total (f : N -> K -> K -> Z) : (forall n, total_cmp (f n)) -> total_cmp (rumCompareAttEntries f).
  Proof.
    intro OK. assert (OKe := fun n => entries_total (f n) (OK n)). split.
    - intros [n k c]. unfold rumCompareAttEntries. cbn [k_att k_val k_cat]. rewrite N.eqb_refl. cbn [negb].
      apply (tc_refl _ (OKe n) (k, c)).
    - intros [n k c] [n' k' c']. unfold rumCompareAttEntries. cbn [k_att k_val k_cat].
      rewrite (N.eqb_sym n' n). destruct (N.eqb_spec n n') as [->|Hn]; cbn [negb].
      + apply (tc_anti _ (OKe n') (k, c) (k', c')).
      + destruct (N.ltb_spec n n'), (N.ltb_spec n' n); lia.
    - intros [n k c] [n' k' c'] [n2 k2 c2]. unfold rumCompareAttEntries. cbn [k_att k_val k_cat].
      destruct (N.eqb_spec n n') as [->|Hn]; cbn [negb].
      + destruct (N.eqb_spec n' n2) as [->|Hn]; cbn [negb]; [apply (tc_trans _ (OKe n2) (k, c) (k', c') (k2, c2))|auto].
      + destruct (N.eqb_spec n' n2) as [->|Hn']; cbn [negb].
        * destruct (N.eqb_spec n n2); [congruence|]. cbn [negb]. auto.
        * destruct (N.ltb_spec n n'); [|lia]. destruct (N.ltb_spec n' n2); [|lia]. destruct (N.eqb_spec n n2); [lia|]. cbn [negb].
          destruct (N.ltb_spec n n2); lia.
  Qed.
  Lemma att_order (f : N -> K -> K -> Z) a b :
    (rumCompareAttEntries f a b < 0 <->
      (k_att a < k_att b)%N \/
      k_att a = k_att b /\ (cat_code (k_cat a) < cat_code (k_cat b) \/
        k_cat a = CatNormKey /\ k_cat b = CatNormKey /\ f (k_att a) (k_val a) (k_val b) < 0)) /\
    (rumCompareAttEntries f a b = 0 <->
      k_att a = k_att b /\ k_cat a = k_cat b /\ (k_cat a = CatNormKey -> f (k_att a) (k_val a) (k_val b) = 0)).
  Proof.
    destruct a as [n k c], b as [n' k' c']. unfold rumCompareAttEntries, rumCompareEntries. cbn [k_att k_val k_cat].
    destruct (N.eqb_spec n n') as [->|Hn]; cbn [negb].
    - destruct c, c'; cbn; split; split; intros; try lia; try (split; [reflexivity|]);
        repeat match goal with H : _ /\ _ |- _ => destruct H | H : _ \/ _ |- _ => destruct H end; try lia; try discriminate;
        try (right; split; [reflexivity|]; first [left; lia | right; auto]); auto; try (split; [reflexivity|auto; discriminate]).
    - destruct (N.ltb_spec n n'); split; split; intros; try lia; try (left; lia); repeat match goal with H : _ /\ _ |- _ => destruct H | H : _ \/ _ |- _ => destruct H end; lia.
  Qed.
End Cmp.

Section Ext.
  Context {K A : Type} (f : K -> K -> Z) (OK : total_cmp f).
  Notation cmpE := (@cmpEntries K A f).
  Lemma cmpE_total : total_cmp cmpE.
  Proof.
    split.
    - intros [k n a]. unfold cmpEntries. cbn. destruct n; [reflexivity|apply (tc_refl _ OK)].
    - intros [k n a] [k' n' a']. unfold cmpEntries. cbn. destruct n, n'; try lia. apply (tc_anti _ OK).
    - intros [k n a] [k' n' a'] [k2 n2 a2]. unfold cmpEntries. cbn. destruct n, n', n2; try lia. apply (tc_trans _ OK).
  Qed.
  Lemma dedup_loop_spec l : forall p, StronglySorted (fun a b => cmpE a b <= 0) (p :: l) ->
    ssorted cmpE (p :: dedup_loop f p l) /\
    (forall x, In x (dedup_loop f p l) -> In x l) /\
    (forall x, In x l -> exists y, In y (p :: dedup_loop f p l) /\ cmpE y x = 0).
  Proof.
    induction l as [|x l IH]; intros p H; [split; [repeat constructor|split; [auto|intros ? []]]|].
    inversion H as [|? ? Hs Hf]; subst. cbn [dedup_loop]. destruct (IH x Hs) as (I1 & I2 & I3).
    apply Forall_cons_iff in Hf as [Hpx Hf]. destruct (Z.eqb_spec (cmpE p x) 0) as [E|E].
    - split; [|split].
      + apply ssorted_inv in I1 as [I1 I4]. apply ssorted_cons; [exact I1|]. eapply Forall_impl; [|exact I4].
        intros y Hy. apply (cmp_le_lt_trans _ cmpE_total _ x); [lia|exact Hy].
      + intros y Hy. right. auto.
      + intros y [<-|Hy]; [exists p; split; [left; reflexivity|exact E]|].
        destruct (I3 y Hy) as (z & [<-|Hz] & Ez); [|exists z; split; [right; exact Hz|exact Ez]].
        exists p. split; [left; reflexivity|]. pose proof (cmp_eq_l _ cmpE_total p x y E). lia.
    - split; [|split].
      + apply ssorted_cons; [exact I1|]. apply ssorted_inv in I1 as [I1 I4]. constructor; [lia|]. eapply Forall_impl; [|exact I4].
        intros y Hy. apply (cmp_lt_trans _ cmpE_total _ x); [lia|exact Hy].
      + intros y [<-|Hy]; [left; reflexivity|right; auto].
      + intros y [<-|Hy]; [exists x; split; [right; left; reflexivity|apply (tc_refl _ cmpE_total)]|].
        destruct (I3 y Hy) as (z & Hz & Ez). exists z. split; [right; exact Hz|exact Ez].
  Qed.
  Lemma fop_perm (l l' : list (@keyEntry K A)) : Permutation l l' -> ForallOrdPairs (fun x y => cmpE x y <> 0) l ->
    ForallOrdPairs (fun x y => cmpE x y <> 0) l'.
  Proof.
    assert (Sy : forall x y, cmpE x y <> 0 -> cmpE y x <> 0) by (intros x y H E; apply H; apply (cmp_sym_eq _ cmpE_total); exact E).
    induction 1 as [|x l l' P IH|x y l|l l' l2 P1 IH1 P2 IH2]; intro H; auto.
    - inversion H; subst. constructor; [|apply IH; assumption]. rewrite <- P. assumption.
    - inversion H as [|? ? H1 H2]; subst. inversion H2 as [|? ? H3 H4]; subst. apply Forall_cons_iff in H1 as [H0 H1].
      constructor; [constructor; [apply Sy; exact H0|exact H3]|]. constructor; assumption.
  Qed.
  Lemma sorted_distinct (l : list (@keyEntry K A)) : StronglySorted (fun a b => cmpE a b <= 0) l -> ForallOrdPairs (fun x y => cmpE x y <> 0) l -> ssorted cmpE l.
  Proof.
    induction 1 as [|x l Hs IH Hf]; intro H; [constructor|]. inversion H; subst. apply ssorted_cons; [apply IH; assumption|].
    rewrite Forall_forall in *. intros y Hy. specialize (Hf y Hy). specialize (H2 y Hy). lia.
  Qed.
  Definition skey (s : @stored K A) : K * category := fst s.
  Notation scmp := (fun a b : @stored K A => rumCompareEntries f (fst (fst a)) (snd (fst a)) (fst (fst b)) (snd (fst b))).
  Lemma scmp_stored a b : scmp (stored_of a) (stored_of b) = cmpE a b.
  Proof.
    destruct a as [k n x], b as [k' n' x']. unfold stored_of, rumCompareEntries, cmpEntries. cbn.
    destruct n, n'; reflexivity.
  Qed.
  Lemma extract_spec qsort haveDups dflt (es : list (@keyEntry K A)) : sorts f qsort haveDups -> es <> [] ->
    let out := rumExtractEntries f qsort haveDups dflt (Some es) in
    ssorted scmp out /\
    (forall s, In s out -> exists e, In e es /\ s = stored_of e) /\
    (forall e, In e es -> exists s, In s out /\ scmp s (stored_of e) = 0).
  Proof.
    intros HS Hne. assert (K2 : forall l, ssorted cmpE l -> (forall x, In x l -> In x es) -> (forall x, In x es -> exists y, In y l /\ cmpE y x = 0) ->
      ssorted scmp (map stored_of l) /\ (forall s, In s (map stored_of l) -> exists e, In e es /\ s = stored_of e) /\
      (forall e, In e es -> exists s, In s (map stored_of l) /\ scmp s (stored_of e) = 0)).
    { intros l H1 H2 H3. split; [|split].
      - clear H2 H3. induction H1 as [|x l H1 IH Hf]; [constructor|]. cbn [map]. apply ssorted_cons; [exact IH|].
        rewrite Forall_map. eapply Forall_impl; [|exact Hf]. intros y Hy. rewrite scmp_stored. exact Hy.
      - intros s Hs. apply in_map_iff in Hs as (e & <- & He). eauto.
      - intros e He. destruct (H3 e He) as (y & Hy & E). exists (stored_of y). split; [apply in_map; exact Hy|]. rewrite scmp_stored. exact E. }
    unfold rumExtractEntries. destruct es as [|e1 [|e2 es]]; [congruence| |].
    - apply (K2 [e1]); [repeat constructor|auto|]. intros x [<-|[]]. exists e1. split; [left; reflexivity|apply (tc_refl _ cmpE_total)].
    - set (l := e1 :: e2 :: es) in *. destruct (HS l) as (P & S1 & D). cbn zeta. destruct (haveDups l) eqn:Eh.
      + apply K2.
        * unfold dedup. destruct (qsort l) as [|p r] eqn:Eq; [constructor|]. apply dedup_loop_spec. exact S1.
        * intros x Hx. apply (Permutation_in x (Permutation_sym P)). unfold dedup in Hx. destruct (qsort l) as [|p r] eqn:Eq; [destruct Hx|].
          destruct Hx as [<-|Hx]; [left; reflexivity|]. right. apply (dedup_loop_spec r p S1). exact Hx.
        * intros x Hx. apply (Permutation_in x P) in Hx. unfold dedup. destruct (qsort l) as [|p r] eqn:Eq; [destruct Hx|].
          destruct Hx as [<-|Hx]; [exists p; split; [left; reflexivity|apply (tc_refl _ cmpE_total)]|].
          apply (dedup_loop_spec r p S1). exact Hx.
      + apply K2.
        * apply sorted_distinct; [exact S1|]. apply (fop_perm l); [exact P|]. apply D. reflexivity.
        * intros x Hx. apply (Permutation_in x (Permutation_sym P) Hx).
        * intros x Hx. exists x. split; [apply (Permutation_in x P Hx)|apply (tc_refl _ cmpE_total)].
  Qed.
End Ext.

(** a sort that meets [sorts] *)
Fixpoint ins_e {K A} (f : K -> K -> Z) (x : @keyEntry K A) (l : list keyEntry) : list keyEntry :=
  match l with
  | [] => [x]
  | y :: r => if cmpEntries f x y <=? 0 then x :: l else y :: ins_e f x r
  end.
Definition isort_e {K A} (f : K -> K -> Z) (l : list (@keyEntry K A)) : list keyEntry := fold_right (ins_e f) [] l.
Lemma isort_sorts {K A} (f : K -> K -> Z) : total_cmp f -> sorts f (@isort_e K A f) (fun _ => true).
Proof.
  intros OK l. assert (OKE := cmpE_total (A := A) f OK).
  assert (P : forall x r, Permutation (x :: r) (ins_e (A := A) f x r)).
  { induction r as [|y r IH]; [reflexivity|]. cbn [ins_e]. destruct (_ <=? 0); [reflexivity|]. rewrite <- IH. constructor. }
  split; [|split; [|discriminate]].
  - induction l as [|x l IH]; [reflexivity|]. cbn [isort_e fold_right]. rewrite <- P. constructor. exact IH.
  - induction l as [|x l IH]; [constructor|]. cbn [isort_e fold_right]. fold (isort_e f l). revert IH. generalize (isort_e f l).
    induction l0 as [|y r IH]; intro Hs; [repeat constructor|]. cbn [ins_e]. inversion Hs; subst. destruct (Z.leb_spec (cmpEntries f x y) 0).
    + constructor; [exact Hs|]. constructor; [assumption|]. eapply Forall_impl; [|exact H2]. intros z Hz. cbn beta in Hz. apply (tc_trans _ OKE x y z); lia.
    + constructor; [apply IH; assumption|]. rewrite <- P. constructor; [|assumption].
      assert (cmpEntries f y x < 0) by (apply (cmp_gt_lt _ OKE); lia). lia.
Qed.
Lemma zsub_total : total_cmp (fun x y : Z => x - y).
Proof. split; intros; lia. Qed.
Lemma att_order_rank {K} (f : N -> K -> K -> Z) a b :
  let rank c := match c with CatEmptyQuery => 0 | CatNormKey => 1 | CatNullKey => 2 | CatEmptyItem => 3 | CatNullItem => 4 end in
  (rumCompareAttEntries f a b < 0 <->
    (k_att a < k_att b)%N \/
    k_att a = k_att b /\ (rank (k_cat a) < rank (k_cat b) \/
      k_cat a = CatNormKey /\ k_cat b = CatNormKey /\ f (k_att a) (k_val a) (k_val b) < 0)) /\
  (rumCompareAttEntries f a b = 0 <->
    k_att a = k_att b /\ k_cat a = k_cat b /\ (k_cat a = CatNormKey -> f (k_att a) (k_val a) (k_val b) = 0)).
Proof.
  intro rank. destruct (att_order f a b) as [H1 H2]. split; [|exact H2]. rewrite H1.
  assert (E : forall c, rank c = cat_code c + 1) by (intros []; reflexivity). rewrite !E.
  split; intros [?|(? & [?|?])]; auto; right; (split; [assumption|]); first [left; lia|right; assumption].
Qed.
