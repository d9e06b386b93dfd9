(** C54: the sorting of the rows a scan has found.  Model: SortItems.v, Qsort.v. *)
From Coq Require Import ZArith Arith List Lia Permutation Sorting.Sorted Bool Floats.SpecFloat.
From Verif Require Import Ord Base Codec Array ArrayExamples BulkSpec OrderScan OrderSpec Qsort QsortProof SortItems SortItemsProof.
Import ListNotations.
Local Open Scope Z_scope.

(** One vector of distances is smaller than another: at the first place where they differ. *)
Definition smaller (a b : list float8) : Prop :=
  exists k x y, nth_error a k = Some x /\ nth_error b k = Some y /\ SFltb x y = true /\
    forall m x' y', (m < k)%nat -> nth_error a m = Some x' -> nth_error b m = Some y' -> SFltb x' y' = false /\ SFltb y' x' = false.

(** (1) Whatever the comparison says, no row is lost and none is given twice. *)
Theorem C54_every_row_once : forall (T : Type) (cmp : T -> T -> Z) l, Permutation (sort_memtuples cmp l) l.
Proof. exact @sort_mem_perm. Qed.
Print Assumptions C54_every_row_once.

(** (2) If the comparison is an order on the rows, they come out in it. *)
Theorem C54_sorted : forall (T : Type) (cmp : T -> T -> Z) (P : T -> Prop) l,
  (forall x y, P x -> P y -> (cmp x y < 0 <-> 0 < cmp y x)) ->
  (forall x y z, P x -> P y -> P z -> cmp x y <= 0 -> cmp y z <= 0 -> cmp x z <= 0) ->
  Forall P l -> StronglySorted (fun a b => cmp a b <= 0) (sort_memtuples cmp l).
Proof. exact @sort_mem_sorted. Qed.
Print Assumptions C54_sorted.

(** (3) ORDER BY on float8 distances without NaN: never does a row come after one with a larger vector. *)
Theorem C54_rows_in_order_of_distance : forall n (l : list (@sitem float8)),
  Forall (fun it => length (snd it) = n /\ ~ In S754_nan (snd it)) l ->
  forall i j a b, (i < j)%nat -> nth_error (sort_memtuples comparetup_false l) i = Some a -> nth_error (sort_memtuples comparetup_false l) j = Some b ->
  ~ smaller (snd b) (snd a).
Proof.
  intros n l Hl i j a b Hij Ha Hb (k & x & y & Hx & Hy & Hlt & He).
  pose proof (false_ordered n l Hl) as HS. pose proof (ss_nth _ _ HS i j a b Hij Ha Hb) as Hab. cbv beta in Hab.
  unfold comparetup_false in Hab. pose proof (ctr_not (snd a) (snd b) k Hab) as G.
  assert (La : (k < length (snd a))%nat) by (apply nth_error_Some; congruence). assert (Lb : (k < length (snd b))%nat) by (apply nth_error_Some; congruence).
  rewrite (nth_error_nth _ _ fzero Hx), (nth_error_nth _ _ fzero Hy) in G. rewrite G in Hlt; [discriminate| |exact La|exact Lb].
  intros m Hm. destruct (nth_error (snd a) m) as [xa|] eqn:Ea; [|apply nth_error_None in Ea; lia]. destruct (nth_error (snd b) m) as [xb|] eqn:Eb; [|apply nth_error_None in Eb; lia].
  rewrite (nth_error_nth _ _ fzero Ea), (nth_error_nth _ _ fzero Eb). apply (He m xb xa Hm Eb Ea).
Qed.
Print Assumptions C54_rows_in_order_of_distance.

(** (4) What C17 to C53 assume of the sorts of the scan and of ORDER BY, this sort provides. *)
Theorem C54_sort_of_the_scans : forall T, @sorter T sort_memtuples /\ @sorts_items T sort_memtuples.
Proof. intro T. split; [exact sort_mem_sorter|exact sort_mem_items]. Qed.
Print Assumptions C54_sort_of_the_scans.

(** Three rows, with a NaN in the middle: it is neither less nor greater than the others, and the array counts as in
    order. *)
Definition dist_row (b : N) (d : float8) : @sitem float8 := (mkIp b 1, false, [d]).
Theorem C54_nan_distance_refuted :
  let l := [dist_row 1 (of_int 2); dist_row 2 S754_nan; dist_row 3 (of_int 1)] in
  sort_memtuples comparetup_false l = l /\ smaller [of_int 1] [of_int 2].
Proof.
  cbv zeta. split; [vm_compute; reflexivity|]. exists 0%nat, (of_int 1), (of_int 2). split; [reflexivity|]. split; [reflexivity|].
  split; [vm_compute; reflexivity|]. intros m x' y' Hm. lia.
Qed.
Print Assumptions C54_nan_distance_refuted.

(** Sixty rows: median of medians, two partitions; with equal vectors and infinity. *)
Definition many_rows : list (@sitem float8) :=
  map (fun i : nat => (mkIp (N.of_nat i) 1, false, [of_int (Z.of_nat ((i * 37) mod 11)); if Nat.eqb (i mod 7) 3 then finf else of_int (- Z.of_nat (i mod 5))])) (seq 0 60).
Example C54_hypotheses_met :
  Forall (fun it : @sitem float8 => length (snd it) = 2%nat /\ ~ In S754_nan (snd it)) many_rows /\
  presorted (dist_row 0 fzero) comparetup_false many_rows = false /\
  map (fun it : @sitem float8 => blk (fst (fst it))) (firstn 8 (sort_memtuples comparetup_false many_rows)) <> map (fun it : @sitem float8 => blk (fst (fst it))) (firstn 8 many_rows) /\
  smaller (snd (nth 1 many_rows (dist_row 0 fzero))) (snd (nth 2 many_rows (dist_row 0 fzero))) /\
  sort_memtuples Z.sub [3; 1; 2; 9; 8; 3; 3; 0; 7; 1; 5] = [0; 1; 1; 2; 3; 3; 3; 5; 7; 8; 9].
Proof.
  split.
  - assert (H : forallb (fun it : @sitem float8 => Nat.eqb (length (snd it)) 2 && negb (existsb (fun x => match x with S754_nan => true | _ => false end) (snd it))) many_rows = true) by (vm_compute; reflexivity).
    rewrite forallb_forall in H. apply Forall_forall. intros it Hin. specialize (H it Hin). apply andb_true_iff in H as [H1 H2]. split; [apply Nat.eqb_eq, H1|].
    intro Hn. rewrite (proj2 (existsb_exists _ _)) in H2; [discriminate|]. exists S754_nan. split; [exact Hn|reflexivity].
  - split; [vm_compute; reflexivity|]. split; [intro E; assert (F : nth 0 (map (fun it : @sitem float8 => blk (fst (fst it))) (firstn 8 (sort_memtuples comparetup_false many_rows))) 0%N = 0%N) by (rewrite E; reflexivity); vm_compute in F; discriminate F|]. split; [|vm_compute; reflexivity].
    exists 0%nat, (of_int 4), (of_int 8). split; [vm_compute; reflexivity|]. split; [vm_compute; reflexivity|]. split; [vm_compute; reflexivity|]. intros m x' y' Hm. lia.
Qed.
