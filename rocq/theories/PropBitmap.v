(** C40: the bitmap a scan collects rows in, under a memory limit.  Model: TidBitmap.v. *)
From Coq Require Import Lia ZifyN Permutation NArith List Bool.
From Verif Require Import Base TidBitmap TidBitmapProof.
Import ListNotations.
Local Open Scope N_scope.

(** [collected visit iterate inter t S]: some history of additions, unions and (only if [inter])
    intersections on bitmaps with any memory limits led to [t]; without memory limits it would hold
    exactly the rows [S].  [visit] chooses the pages to degrade, [iterate] the order of the hash. *)
Inductive collected (visit : tbm -> list N) (iterate : list (N * pentry) -> list (N * pentry)) (inter : bool)
    : tbm -> (iptr -> Prop) -> Prop :=
| col_empty : forall m, collected visit iterate inter (tbm_create m) (fun _ => False)
| col_add : forall t S tid t', collected visit iterate inter t S -> tbm_add_tuple visit t tid false = Some t' ->
    collected visit iterate inter t' (fun x => S x \/ x = tid)
| col_union : forall a A b B, collected visit iterate inter a A -> collected visit iterate inter b B ->
    collected visit iterate inter (tbm_union visit iterate a b) (fun x => A x \/ B x)
| col_inter : forall a A b B, inter = true -> collected visit iterate inter a A -> collected visit iterate inter b B ->
    collected visit iterate inter (tbm_intersect a b) (fun x => A x /\ B x).

Lemma collected_inv visit iterate inter t S : (forall l, Permutation (iterate l) l) -> collected visit iterate inter t S ->
  tb_ok t /\ covers t S /\ tight true t S /\ (inter = false -> tight false t S).
Proof.
  intros Hit H. induction H as [m|t S tid t' H IH Ha|a A b B Ha IHa Hb IHb|a A b B Hi Ha IHa Hb IHb].
  - split; [split; [constructor|intros k e E; discriminate]|]. split; [intros x []|].
    split; [|intros _]; intros x e Hx [He _]; discriminate.
  - destruct IH as (H1 & H2 & H3 & H4). destruct (add_spec visit true t S tid t' H1 H2 H3 Ha) as (H5 & H6 & H7).
    refine (conj H5 (conj H6 (conj H7 _))). intros E. exact (proj2 (proj2 (add_spec visit false t S tid t' H1 H2 (H4 E) Ha))).
  - destruct IHa as (H1 & H2 & H3 & H4), IHb as (G1 & G2 & G3 & G4).
    destruct (union_spec visit iterate true a b A A B B Hit H1 G1 H2 H3 G2 G3) as (H5 & H6 & H7).
    refine (conj H5 (conj H6 (conj H7 _))). intros E.
    exact (proj2 (proj2 (union_spec visit iterate false a b A A B B Hit H1 G1 H2 (H4 E) G2 (G4 E)))).
  - destruct IHa as (H1 & H2 & H3 & _), IHb as (G1 & G2 & G3 & _).
    destruct (intersect_spec a b A A B B H1 G1 H2 H3 G2 G3) as (H5 & H6 & H7).
    refine (conj H5 (conj H6 (conj H7 _))). intros E. rewrite Hi in E. discriminate E.
Qed.

(** C40, no row is lost: whatever pages were degraded, a row of the exact result is found. *)
Theorem C40_no_row_lost : forall visit iterate inter t S, (forall l, Permutation (iterate l) l) ->
  collected visit iterate inter t S -> forall tid, S tid -> fst (rum_tbm_contains_tid t tid) = true.
Proof.
  intros visit iterate inter t S Hit H tid Hs. apply contains_mem. apply (collected_inv _ _ _ _ _ Hit H). exact Hs.
Qed.
Print Assumptions C40_no_row_lost.

(** C40, rows of exact pages: a row reported without recheck was added (row numbers start at 1).
    Missing: intersections, see C40_intersect_refuted. *)
Theorem C40_exact_pages_partial : forall visit iterate t S, (forall l, Permutation (iterate l) l) ->
  collected visit iterate false t S -> forall tid, 1 <= off tid -> rum_tbm_contains_tid t tid = (true, false) -> S tid.
Proof.
  intros visit iterate t S Hit H tid Ho Hc. destruct (contains_sure _ _ Hc) as (e & He & Hb).
  destruct (collected_inv _ _ _ _ _ Hit H) as (_ & _ & _ & Ht). exact (Ht eq_refl tid e Ho He Hb ltac:(discriminate)).
Qed.
Print Assumptions C40_exact_pages_partial.

(** With intersections the page's own recheck mark has to be honoured, which
    rum_tbm_contains_tid does not do; if the mark is clear the row is exact. *)
Theorem C40_unmarked_pages_exact : forall visit iterate inter t S, (forall l, Permutation (iterate l) l) ->
  collected visit iterate inter t S -> forall tid, 1 <= off tid -> rum_tbm_contains_tid t tid = (true, false) ->
  (forall e, tbm_find_pageentry t (blk tid) = Some e -> pe_recheck e = false) -> S tid.
Proof.
  intros visit iterate inter t S Hit H tid Ho Hc Hr. destruct (contains_sure _ _ Hc) as (e & He & Hb).
  destruct (collected_inv _ _ _ _ _ Hit H) as (_ & _ & Ht & _). refine (Ht tid e Ho He Hb _). intros _. apply Hr.
  rewrite find_lookup. destruct He as [-> ->]. reflexivity.
Qed.
Print Assumptions C40_unmarked_pages_exact.

(** Building a bitmap by additions only. *)
Fixpoint addall (visit : tbm -> list N) (t : tbm) (l : list iptr) : option tbm :=
  match l with
  | [] => Some t
  | x :: r => match tbm_add_tuple visit t x false with Some t' => addall visit t' r | None => None end
  end.
Lemma addall_collected visit iterate inter : forall l t S t', collected visit iterate inter t S -> addall visit t l = Some t' ->
  exists S', collected visit iterate inter t' S' /\ forall x, S' x <-> S x \/ In x l.
Proof.
  induction l as [|x l IH]; intros t S t' H; cbn [addall].
  - intros [= <-]. exists S. split; [exact H|]. cbn. tauto.
  - destruct (tbm_add_tuple visit t x false) as [t1|] eqn:E; [|discriminate]. intros Ha.
    destruct (IH _ _ _ (col_add _ _ _ _ _ _ _ H E) Ha) as (S' & H1 & H2). exists S'. split; [exact H1|].
    intros y. rewrite H2. cbn. intuition auto.
Qed.

(** Example: 17 pages into a bitmap limited to 16 entries, the smallest limit tbm_calculate_entries allows. *)
Definition exvisit (t : tbm) : list N := map fst (tb_tab t).
Definition exrows : list iptr := map (fun k => mkIp (N.of_nat k) 1) (seq 1 17).
Example C40_hypotheses_met : exists t S, collected exvisit (fun l => l) false t S /\
  (forall x, S x <-> In x exrows) /\
  map (fun x => rum_tbm_contains_tid t x) [mkIp 1 1; mkIp 17 1; mkIp 17 2; mkIp 1 2; mkIp 18 1] =
  [(true, false); (true, true); (true, true); (false, false); (false, false)].
Proof.
  destruct (addall exvisit (tbm_create 16) exrows) as [t|] eqn:E; [|vm_compute in E; discriminate].
  destruct (addall_collected exvisit (fun l => l) false _ _ _ _ (col_empty _ _ _ 16) E) as (S & H1 & H2).
  exists t, S. split; [exact H1|]. split; [intros x; rewrite H2; tauto|]. vm_compute in E. injection E as <-. vm_compute. reflexivity.
Qed.

(** C40 fails for intersections: rows (17,1) and (17,2) come from one condition; another condition
    yields 17 rows on 17 pages, so its bitmap degrades page 17 to "whole page".  In the
    intersection row (17,2) is reported as certain although the second condition never had it. *)
Theorem C40_intersect_refuted : exists visit iterate t S tid,
  (forall l, Permutation (iterate l) l) /\ collected visit iterate true t S /\ 1 <= off tid /\
  rum_tbm_contains_tid t tid = (true, false) /\ ~ S tid.
Proof.
  exists exvisit, (fun l => l).
  destruct (addall exvisit (tbm_create 16) exrows) as [b|] eqn:Eb; [|vm_compute in Eb; discriminate].
  destruct (addall exvisit (tbm_create 16) [mkIp 17 1; mkIp 17 2]) as [a|] eqn:Ea; [|vm_compute in Ea; discriminate].
  destruct (addall_collected exvisit (fun l => l) true _ _ _ _ (col_empty _ _ _ 16) Eb) as (B & HB & HB').
  destruct (addall_collected exvisit (fun l => l) true _ _ _ _ (col_empty _ _ _ 16) Ea) as (A & HA & HA').
  exists (tbm_intersect a b), (fun x => A x /\ B x), (mkIp 17 2).
  split; [intros l; apply Permutation_refl|]. split; [apply col_inter; auto|]. split; [cbn; lia|]. split.
  - vm_compute in Ea, Eb. injection Ea as <-. injection Eb as <-. vm_compute. reflexivity.
  - intros [_ Hb]. apply HB' in Hb. destruct Hb as [[]|Hb]. apply in_map_iff in Hb. destruct Hb as (k & [= _ Hk] & _).
Qed.
Print Assumptions C40_intersect_refuted.
