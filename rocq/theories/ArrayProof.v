(** Proofs: arrays (C29, C30). *)
From Coq Require Import NArith ZArith Lia List Permutation Sorted Bool Arith SpecFloat.
From Verif Require Import Base Ord OrdProof Codec Entries EntriesSpec EntriesProof Bulk BulkSpec EntryTree IndexSpec ScanEntry Scan TidBitmap IndexScan QuerySpec EntryFound IndexScanProof
  Array ArraySpec.
Import ListNotations.
Local Open Scope Z_scope.

Section Elems.
  Context {K : Type}.
  Variable cmp : K -> K -> Z.
  Hypothesis OK : total_cmp cmp.
  Variable qsort : (K -> K -> Z) -> list K -> list K.
  Hypothesis HQ : sorter qsort.
  Notation has := (has cmp).
  Notation apart := (ForallOrdPairs (fun x y => cmp x y <> 0)).

  Lemma cmp_eq_trans x y z : cmp x y = 0 -> cmp y z = 0 -> cmp x z = 0.
  Proof. intros H1 H2. pose proof (cmp_eq_l _ OK x y z H1). lia. Qed.
  Lemma has_eq a x y : cmp x y = 0 -> has a x -> has a y.
  Proof. intros E (z & Hz & H). exists z. split; [exact Hz|]. apply (cmp_eq_trans y x z); [apply (cmp_sym_eq _ OK); exact E|exact H]. Qed.
  Lemma has_in a x : In x a -> has a x.
  Proof. intro H. exists x. split; [exact H|apply (tc_refl _ OK)]. Qed.
  Lemma has_cons a x y : has (y :: a) x <-> cmp x y = 0 \/ has a x.
  Proof.
    split; [intros (z & [<-|Hz] & E); [left; exact E|right; exists z; auto]|].
    intros [E|(z & Hz & E)]; [exists y; split; [left; reflexivity|exact E]|exists z; split; [right; exact Hz|exact E]].
  Qed.
  Lemma has_app a b x : has (a ++ b) x <-> has a x \/ has b x.
  Proof.
    induction a as [|y a IH]; [split; [right; assumption|intros [(z & [] & _)|H]; exact H]|]. cbn [app]. rewrite !has_cons, IH. tauto.
  Qed.

  Lemma sort_spec a : Permutation a (sortSimpleArray cmp qsort a) /\ StronglySorted (fun x y => cmp x y <= 0) (sortSimpleArray cmp qsort a).
  Proof.
    unfold sortSimpleArray. destruct (Nat.ltb_spec 1 (length a)) as [L|L]; [apply HQ; exact OK|]. split; [reflexivity|].
    destruct a as [|x [|y a]]; [constructor|repeat constructor|cbn in L; lia].
  Qed.
  Lemma uniq_spec l : forall dr, StronglySorted (fun x y => cmp x y <= 0) (dr :: l) ->
    ssorted cmp (dr :: uniq_loop cmp dr l) /\ (forall x, In x (uniq_loop cmp dr l) -> In x l) /\
    forall x, In x l -> has (dr :: uniq_loop cmp dr l) x.
  Proof.
    induction l as [|x l IH]; intros dr H; [split; [repeat constructor|split; [intros ? []|intros ? []]]|].
    apply StronglySorted_inv in H as [Hs Hf]. apply Forall_cons_iff in Hf as [Hx Hf]. cbn [uniq_loop]. destruct (Z.eqb_spec (cmp x dr) 0) as [E|E]; cbn [negb].
    - apply StronglySorted_inv in Hs as [Hs _]. destruct (IH dr (SSorted_cons _ Hs Hf)) as (I1 & I2 & I3). split; [exact I1|]. split; [intros y Hy; right; auto|].
      intros y [<-|Hy]; [exists dr; split; [left; reflexivity|exact E]|auto].
    - assert (Hlt : cmp dr x < 0) by (destruct (Z.eq_dec (cmp dr x) 0) as [E'|]; [apply (cmp_sym_eq _ OK) in E'; lia|lia]).
      destruct (IH x Hs) as (I1 & I2 & I3). split; [|split].
      + apply ssorted_cons; [exact I1|]. apply ssorted_inv in I1 as [_ I4]. constructor; [exact Hlt|]. eapply Forall_impl; [|exact I4]. intros y Hy. exact (cmp_lt_trans _ OK _ _ _ Hlt Hy).
      + intros y [<-|Hy]; [left; reflexivity|right; auto].
      + intros y [<-|Hy]; apply has_cons; right; [apply has_in; left; reflexivity|auto].
  Qed.
  Lemma elems_sorted a : ssorted cmp (elems cmp qsort a).
  Proof.
    unfold elems, uniqSimpleArray. destruct (sort_spec a) as [_ S]. destruct (sortSimpleArray cmp qsort a) as [|x l]; [constructor|]. apply uniq_spec. exact S.
  Qed.
  Lemma elems_in a x : In x (elems cmp qsort a) -> In x a.
  Proof.
    unfold elems, uniqSimpleArray. destruct (sort_spec a) as [P S]. intro H. apply (Permutation_in x (Permutation_sym P)).
    destruct (sortSimpleArray cmp qsort a) as [|y l]; [destruct H|]. destruct H as [<-|H]; [left; reflexivity|right]. apply (uniq_spec l y S). exact H.
  Qed.
  Lemma has_elems a x : has (elems cmp qsort a) x <-> has a x.
  Proof.
    split; [intros (y & Hy & E); exists y; split; [apply elems_in; exact Hy|exact E]|]. intros (y & Hy & E).
    unfold elems, uniqSimpleArray. destruct (sort_spec a) as [P S]. apply (Permutation_in y P) in Hy. apply (has_eq _ y x); [apply (cmp_sym_eq _ OK); exact E|].
    destruct (sortSimpleArray cmp qsort a) as [|z l]; [destruct Hy|]. destruct Hy as [<-|Hy]; [apply has_in; left; reflexivity|]. apply (uniq_spec l z S). exact Hy.
  Qed.
  Lemma elems_nil a : elems cmp qsort a = [] <-> a = [].
  Proof.
    split; [|intros ->; reflexivity]. intro E. destruct a as [|x a]; [reflexivity|exfalso]. assert (H : has (elems cmp qsort (x :: a)) x) by (apply has_elems, has_in; left; reflexivity).
    rewrite E in H. destruct H as (y & [] & _).
  Qed.
  Lemma sorted_apart l : ssorted cmp l -> apart l.
  Proof. induction 1 as [|x l _ IH H]; constructor; [|exact IH]. eapply Forall_impl; [|exact H]. cbn. intros y Hy. lia. Qed.

  (** Counting: an injection up to equality. *)
  Lemma apart_app_inv u x v : apart (u ++ x :: v) -> apart (u ++ v) /\ ~ has (u ++ v) x.
  Proof.
    induction u as [|y u IH]; cbn [app]; intro H; inversion H as [|? ? H1 H2]; subst.
    - split; [exact H2|]. intros (z & Hz & E). rewrite Forall_forall in H1. exact (H1 z Hz E).
    - destruct (IH H2) as [I1 I2]. rewrite Forall_forall in H1. split.
      + constructor; [|exact I1]. rewrite Forall_forall. intros z Hz. apply H1. apply in_app_iff in Hz as [Hz|Hz]; apply in_app_iff; [left; exact Hz|right; right; exact Hz].
      + rewrite has_cons. intros [E|H3]; [|exact (I2 H3)]. apply (H1 x); [apply in_app_iff; right; left; reflexivity|]. apply (cmp_sym_eq _ OK). exact E.
  Qed.
  Lemma apart_le u : forall v, apart u -> apart v -> (forall x, has u x -> has v x) -> (length u <= length v)%nat.
  Proof.
    induction u as [|x u IH]; intros v Hu Hv H; [cbn; lia|]. inversion Hu as [|? ? H1 H2]; subst.
    destruct (H x) as (y & Hy & E); [apply has_in; left; reflexivity|]. apply in_split in Hy as (v1 & v2 & ->). apply apart_app_inv in Hv as Hv'. destruct Hv' as [Hv' Hn].
    assert (length u <= length (v1 ++ v2))%nat; [|rewrite app_length in *; cbn [length]; lia]. apply IH; [exact H2|exact Hv'|].
    intros z Hz. assert (Hz' : has (v1 ++ y :: v2) z) by (apply H, has_cons; right; exact Hz). rewrite has_app, has_cons in Hz'. rewrite has_app.
    destruct Hz' as [Hz'|[Hz'|Hz']]; [left; exact Hz'| |right; exact Hz']. exfalso. destruct Hz as (w & Hw & Ew). rewrite Forall_forall in H1. apply (H1 w Hw).
    apply (cmp_eq_trans x z w); [|exact Ew]. apply (cmp_eq_trans x y z); [exact E|]. apply (cmp_sym_eq _ OK). exact Hz'.
  Qed.
  Lemma apart_count u v : apart u -> apart v -> (forall x, has u x <-> has v x) -> length u = length v.
  Proof. intros Hu Hv H. apply Nat.le_antisymm; apply apart_le; try assumption; intros x; apply H. Qed.

  Lemma nelems_distinct a : distinct cmp a (nelems cmp qsort a).
  Proof. exists (elems cmp qsort a). split; [reflexivity|]. split; [apply sorted_apart, elems_sorted|]. apply has_elems. Qed.
  Lemma distinct_unique a n m : distinct cmp a n -> distinct cmp a m -> n = m.
  Proof. intros (u & -> & Hu & H1) (v & -> & Hv & H2). f_equal. apply apart_count; [exact Hu|exact Hv|]. intro x. rewrite H1, H2. reflexivity. Qed.
  Lemma in_common_unique a b n m : in_common cmp a b n -> in_common cmp a b m -> n = m.
  Proof. intros (u & -> & Hu & H1) (v & -> & Hv & H2). f_equal. apply apart_count; [exact Hu|exact Hv|]. intro x. rewrite H1, H2. reflexivity. Qed.

  (** the elements of [a] found in [b] *)
  Definition inb (b : list K) (x : K) : bool := existsb (fun y => cmp x y =? 0) b.
  Lemma inb_has b x : inb b x = true <-> has b x.
  Proof.
    unfold inb. rewrite existsb_exists. split; intros (y & Hy & E); exists y; (split; [exact Hy|]); apply Z.eqb_eq; exact E.
  Qed.
  Lemma apart_filter (f : K -> bool) l : apart l -> apart (filter f l).
  Proof.
    induction 1 as [|x l H _ IH]; [constructor|]. cbn [filter]. destruct (f x); [|exact IH]. constructor; [|exact IH].
    rewrite Forall_forall in *. intros y Hy. apply filter_In in Hy. apply H. tauto.
  Qed.
  Lemma common_filter a b : in_common cmp a b (Z.of_nat (length (filter (inb b) (elems cmp qsort a)))).
  Proof.
    eexists. split; [reflexivity|]. split; [apply apart_filter, sorted_apart, elems_sorted|]. intro x. split.
    - intros (y & Hy & E). apply filter_In in Hy as [Hy Hb]. split; [apply has_elems; exists y; auto|]. apply (has_eq b y x); [apply (cmp_sym_eq _ OK); exact E|]. apply inb_has. exact Hb.
    - intros [Ha Hb]. apply has_elems in Ha as (y & Hy & E). exists y. split; [|exact E]. apply filter_In. split; [exact Hy|]. apply inb_has. apply (has_eq b x y); assumption.
  Qed.
  Lemma common_swap a b n : in_common cmp a b n -> in_common cmp b a n.
  Proof. intros (u & H1 & H2 & H3). exists u. split; [exact H1|]. split; [exact H2|]. intro x. rewrite H3. tauto. Qed.
  Lemma filter_ext_in' (f g : K -> bool) l : (forall x, In x l -> f x = g x) -> filter f l = filter g l.
  Proof. induction l as [|x l IH]; intro H; [reflexivity|]. cbn [filter]. rewrite (H x (or_introl eq_refl)), IH; [reflexivity|]. intros y Hy. apply H. right. exact Hy. Qed.
  Lemma loop_cons x a y b : intersect_loop cmp (x :: a) (y :: b) =
    if cmp x y <? 0 then intersect_loop cmp a (y :: b) else if 0 <? cmp x y then intersect_loop cmp (x :: a) b else 1 + intersect_loop cmp a b.
  Proof. reflexivity. Qed.
  Lemma loop_filter a : forall b, ssorted cmp a -> ssorted cmp b -> intersect_loop cmp a b = Z.of_nat (length (filter (inb b) a)).
  Proof.
    induction a as [|x a IHa]; intros b Ha Hb; [destruct b; reflexivity|]. apply ssorted_inv in Ha as Ha'. destruct Ha' as [Ha1 Ha2].
    induction b as [|y b IHb].
    - cbn [intersect_loop]. replace (filter (inb []) (x :: a)) with (@nil K); [reflexivity|]. symmetry. clear. induction (x :: a) as [|z l IH]; [reflexivity|exact IH].
    - apply ssorted_inv in Hb as Hb'. destruct Hb' as [Hb1 Hb2]. specialize (IHb Hb1). rewrite Forall_forall in Ha2, Hb2. rewrite loop_cons.
      destruct (Z.ltb_spec (cmp x y) 0) as [L|L]; [|destruct (Z.ltb_spec 0 (cmp x y)) as [G|G]].
      + rewrite (IHa (y :: b) Ha1 Hb). cbn [filter]. destruct (inb (y :: b) x) eqn:E; [exfalso|reflexivity].
        apply inb_has, has_cons in E as [E|(z & Hz & E)]; [lia|]. specialize (Hb2 z Hz). pose proof (cmp_lt_trans _ OK _ _ _ L Hb2). lia.
      + rewrite IHb. f_equal. f_equal. apply filter_ext_in'. intros z Hz. unfold inb. cbn [existsb]. destruct (Z.eqb_spec (cmp z y) 0) as [E|]; [exfalso|reflexivity].
        assert (cmp x z <= 0) by (destruct Hz as [<-|Hz]; [rewrite (tc_refl _ OK); lia|specialize (Ha2 z Hz); lia]).
        assert (cmp x y <= 0) by (apply (tc_trans _ OK x z y); lia). lia.
      + assert (E : cmp x y = 0) by lia. rewrite (IHa b Ha1 Hb1). cbn [filter]. assert (Ex : inb (y :: b) x = true) by (apply inb_has, has_cons; left; exact E). rewrite Ex. cbn [length].
        rewrite Nat2Z.inj_succ. rewrite Z.add_1_l. f_equal. f_equal. f_equal. apply filter_ext_in'. intros z Hz. unfold inb. cbn [existsb]. destruct (Z.eqb_spec (cmp z y) 0) as [E'|]; [exfalso|reflexivity].
        specialize (Ha2 z Hz). assert (cmp x z = 0); [|lia]. apply (cmp_eq_trans x y z E). apply (cmp_sym_eq _ OK). exact E'.
  Qed.
  Lemma intersect_common a b : in_common cmp a b (getNumOfIntersect cmp qsort a b).
  Proof.
    unfold getNumOfIntersect. rewrite loop_filter by apply elems_sorted. destruct (common_filter a b) as (u & E & Hu & H).
    exists (filter (inb (elems cmp qsort b)) (elems cmp qsort a)). split; [reflexivity|]. split; [apply apart_filter, sorted_apart, elems_sorted|]. intro x. split.
    - intros (y & Hy & Ey). apply filter_In in Hy as [Hy Hb]. apply inb_has in Hb. rewrite has_elems in Hb. split; [apply has_elems; exists y; auto|].
      apply (has_eq b y x); [apply (cmp_sym_eq _ OK); exact Ey|exact Hb].
    - intros [Ha Hb]. apply has_elems in Ha as (y & Hy & Ey). exists y. split; [|exact Ey]. apply filter_In. split; [exact Hy|]. apply inb_has, has_elems. apply (has_eq b x y); assumption.
  Qed.

  (** ** The SQL functions *)
  Lemma similar_spec t thr a b : anyarray_similar cmp qsort t thr a b = true <-> similar cmp t thr a b.
  Proof.
    unfold anyarray_similar, similar. split.
    - intro H. destruct a as [|x a]; [discriminate|]. destruct b as [|y b]; [discriminate|]. split; [discriminate|]. split; [discriminate|].
      do 3 eexists. split; [apply nelems_distinct|]. split; [apply nelems_distinct|]. split; [apply intersect_common|exact H].
    - intros (Ha & Hb & na & nb & n & H1 & H2 & H3 & H). destruct a as [|x a]; [congruence|]. destruct b as [|y b]; [congruence|].
      rewrite (distinct_unique _ _ _ (nelems_distinct (x :: a)) H1), (distinct_unique _ _ _ (nelems_distinct (y :: b)) H2), (in_common_unique _ _ _ _ (intersect_common _ _) H3). exact H.
  Qed.
  Lemma common_zero a b n : in_common cmp a b n -> (n = 0 <-> ~ overlaps cmp a b).
  Proof.
    intros (u & -> & Hu & H). split.
    - intros E (x & Hx). apply H in Hx. destruct u; [destruct Hx as (y & [] & _)|discriminate E].
    - intro Hn. destruct u as [|x u]; [reflexivity|]. exfalso. apply Hn. exists x. apply H, has_in. left. reflexivity.
  Qed.
  Lemma nelems_pos a : a <> [] -> 1 <= nelems cmp qsort a.
  Proof. intro H. unfold nelems. destruct (elems cmp qsort a) eqn:E; [apply (proj1 (elems_nil a)) in E; contradiction|cbn [length]; lia]. Qed.
End Elems.
