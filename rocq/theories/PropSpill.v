(** C56: the sorting of rows that do not fit work_mem.  Model: Spill.v, SortItems.v. *)
From Verif Require Import Ord Base Codec Array ArrayExamples BulkSpec OrderScan OrderSpec OrderScanProof Qsort QsortProof SortItems SortItemsProof PropSort Spill SpillProof.
From Coq Require Import NArith ZArith Arith List Lia Permutation Sorting.Sorted Bool Floats.SpecFloat.
Import ListNotations.
Local Open Scope Z_scope.

(** What the tapes are given: a tuple occupies [size] bytes, from which it can be read back. *)
Definition tape_format {T} (image : T -> list byte) (parse : list byte -> T) (size : N) (Q : T -> Prop) : Prop :=
  (size + 4 < 2 ^ 32)%N /\ forall x, Q x -> length (image x) = N.to_nat size /\ parse (image x) = x.

(** (1) Whatever the comparison says, however the rows are distributed to memory loads, with two tapes or more: the sort
    gives an answer, no row is lost and none is given twice. *)
Theorem C56_every_row_once : forall (T : Type) (d : T) cmp image parse size randomAccess Q sortRun, tape_format image parse size Q ->
  (forall l, Permutation (sortRun cmp l) l) -> forall tapes loads, (1 < tapes)%nat -> Forall (Forall Q) loads ->
  exists out, spillSort d cmp image parse size randomAccess sortRun tapes loads = Some out /\ Permutation out (concat loads).
Proof.
  intros T d cmp image parse size ra Q sortRun [Hs Hf] Hp k loads Hk HQ.
  destruct (spill_spec d cmp image parse size ra Hs Q (fun x q => proj1 (Hf x q)) (fun x q => proj2 (Hf x q)) (fun _ => True) (fun _ _ => I) sortRun k loads Hk HQ) as (out & E & P & _).
  - intros l _. split; [apply Hp|exact I].
  - exists out. auto.
Qed.
Print Assumptions C56_every_row_once.

(** (2) If the comparison is an order on the rows and each memory load is sorted, they come out in order. *)
Theorem C56_sorted : forall (T : Type) (d : T) cmp image parse size randomAccess (P : T -> Prop) sortRun, tape_format image parse size P ->
  (forall x y, P x -> P y -> (cmp x y < 0 <-> 0 < cmp y x)) ->
  (forall x y z, P x -> P y -> P z -> cmp x y <= 0 -> cmp y z <= 0 -> cmp x z <= 0) ->
  (forall l, Forall P l -> Permutation (sortRun cmp l) l /\ StronglySorted (fun a b => cmp a b <= 0) (sortRun cmp l)) ->
  forall tapes loads, (1 < tapes)%nat -> Forall (Forall P) loads ->
  exists out, spillSort d cmp image parse size randomAccess sortRun tapes loads = Some out /\
    Permutation out (concat loads) /\ StronglySorted (fun a b => cmp a b <= 0) out.
Proof.
  intros T d cmp image parse size ra P sortRun [Hs Hf] Ha Ht Hr k loads Hk HQ.
  destruct (spill_spec d cmp image parse size ra Hs P (fun x q => proj1 (Hf x q)) (fun x q => proj2 (Hf x q))
    (fun r => StronglySorted (fun a b => cmp a b <= 0) r /\ Forall P r)) with (sortRun := sortRun) (k := k) (chunks := loads) as (out & E & Po & So & _); auto.
  - intros rs H. split; [apply (merge_sorted d cmp P Ha Ht); exact H|]. apply (merge_Q d cmp P). eapply Forall_impl; [|exact H]. intros r [_ q]. exact q.
  - intros l Hl. rewrite Forall_forall in HQ. destruct (Hr l (HQ l Hl)) as [p s]. split; [exact p|]. split; [exact s|].
    specialize (HQ l Hl). rewrite Forall_forall in *. intros x Hx. apply HQ. exact (Permutation_in _ p Hx).
  - exists out. auto.
Qed.
Print Assumptions C56_sorted.

(** (3) The rows of ORDER BY, with the bytes RumSortItem has in memory, [nKeys] distances each, given by their 64 bits
    ([val]: the float8 these are), none a NaN: the same rows come out, with their distances and recheck flags, and never
    a row after one with a larger vector. *)
Definition valued (val : N -> float8) (it : sortItem) : @sitem float8 := (fst it, map val (snd it)).
Theorem C56_rows_in_order_of_distance : forall (val : N -> float8) nKeys pad (d : sortItem) tapes loads,
  (8 * N.of_nat nKeys < 2 ^ 31)%N -> (1 < tapes)%nat ->
  Forall (Forall (fun it : sortItem => ip_ok (fst (fst it)) /\ length (snd it) = nKeys /\ Forall (fun v => (v < 2 ^ 64)%N) (snd it) /\ ~ In S754_nan (map val (snd it)))) loads ->
  exists out, spillSort d (fun a b => comparetup_false (valued val a) (valued val b)) (imageItem pad) (parseItem nKeys) (RumSortItemSize nKeys) false sort_memtuples tapes loads = Some out /\
    Permutation out (concat loads) /\
    forall i j a b, (i < j)%nat -> nth_error out i = Some a -> nth_error out j = Some b -> ~ smaller (map val (snd b)) (map val (snd a)).
Proof.
  intros val n pad d k loads Hn Hk HQ.
  set (P := fun it : sortItem => ip_ok (fst (fst it)) /\ length (snd it) = n /\ Forall (fun v => (v < 2 ^ 64)%N) (snd it) /\ ~ In S754_nan (map val (snd it))) in *.
  set (cmp := fun a b => comparetup_false (valued val a) (valued val b)).
  assert (Ha : forall x y, P x -> P y -> (cmp x y < 0 <-> 0 < cmp y x)).
  { intros x y (_ & Lx & _ & Hx) (_ & Ly & _ & Hy). unfold cmp, comparetup_false, valued. cbn [fst snd]. rewrite !ctr_fcmp by assumption. apply (ctr_anti fcmp fcmp_total). }
  assert (Ht : forall x y z, P x -> P y -> P z -> cmp x y <= 0 -> cmp y z <= 0 -> cmp x z <= 0).
  { intros x y z (_ & Lx & _ & Hx) (_ & Ly & _ & Hy) (_ & Lz & _ & Hz). unfold cmp, comparetup_false, valued. cbn [fst snd]. rewrite !ctr_fcmp by assumption.
    rewrite !(ctr_lex fcmp) by (rewrite !map_length; congruence). apply (lex_trans fcmp fcmp_total). }
  destruct (C56_sorted sortItem d cmp (imageItem pad) (parseItem n) (RumSortItemSize n) false P sort_memtuples) with (tapes := k) (loads := loads) as (out & E & Po & So); auto.
  - split; [unfold RumSortItemSize; change (2 ^ 31)%N with 2147483648%N in Hn; change (2 ^ 32)%N with 4294967296%N; lia|].
    intros x (H1 & H2 & H3 & _). assert (item_ok n x) by (split; auto). split; [apply image_length|apply parse_image]; assumption.
  - intros l Hl. split; [apply sort_mem_perm|apply (sort_mem_sorted cmp P l Ha Ht Hl)].
  - exists out. split; [exact E|]. split; [exact Po|]. intros i j a b Hij Hi Hj.
    pose proof (ss_nth _ _ So i j a b Hij Hi Hj) as Hab. cbv beta in Hab.
    assert (HP : forall q x, nth_error out q = Some x -> length (snd x) = n /\ ~ In S754_nan (map val (snd x))).
    { intros q x Hq. apply nth_error_In in Hq. apply (Permutation_in _ Po) in Hq. apply in_concat in Hq as (l & Hl & Hx). rewrite Forall_forall in HQ. specialize (HQ l Hl).
      rewrite Forall_forall in HQ. destruct (HQ x Hx) as (_ & ? & _ & ?). auto. }
    intros (m & x & y & Hx & Hy & Hlt & He). unfold cmp, comparetup_false in Hab. pose proof (ctr_not _ _ m Hab) as G. unfold valued in G. cbn [snd] in G.
    assert (La : (m < length (map val (snd a)))%nat) by (apply nth_error_Some; congruence). assert (Lb : (m < length (map val (snd b)))%nat) by (apply nth_error_Some; congruence).
    rewrite (nth_error_nth _ _ fzero Hx), (nth_error_nth _ _ fzero Hy) in G. rewrite G in Hlt; [discriminate| |exact La|exact Lb].
    intros q Hq. destruct (nth_error (map val (snd a)) q) as [xa|] eqn:Ea; [|apply nth_error_None in Ea; lia]. destruct (nth_error (map val (snd b)) q) as [xb|] eqn:Eb; [|apply nth_error_None in Eb; lia].
    rewrite (nth_error_nth _ _ fzero Ea), (nth_error_nth _ _ fzero Eb). exact (proj2 (He q xb xa Hq Eb Ea)).
Qed.
Print Assumptions C56_rows_in_order_of_distance.

(** (4) What C17 to C55 assume of the sorts of the scans and of ORDER BY, the sort through tapes provides as well,
    however the rows are distributed to memory loads ([load]). *)
Definition throughTapes {T} (d : T) (image : T -> list byte) (parse : list byte -> T) size (load : list T -> list (list T)) tapes (cmp : T -> T -> Z) (l : list T) : list T :=
  match spillSort d cmp image parse size false sort_memtuples tapes (load l) with Some out => out | None => [] end.
Theorem C56_sort_of_the_scans : forall (T : Type) (d : T) image parse size load tapes, tape_format image parse size (fun _ => True) ->
  (forall l, concat (load l) = l) -> (1 < tapes)%nat ->
  sorter (throughTapes d image parse size load tapes) /\ sorts_items (throughTapes d image parse size load tapes).
Proof.
  intros T d image parse size load k Hf Hl Hk.
  assert (G : forall cmp l (P : T -> Prop), Forall P l -> (forall x y, P x -> P y -> (cmp x y < 0 <-> 0 < cmp y x)) ->
    (forall x y z, P x -> P y -> P z -> cmp x y <= 0 -> cmp y z <= 0 -> cmp x z <= 0) ->
    Permutation (throughTapes d image parse size load k cmp l) l /\ StronglySorted (fun a b => cmp a b <= 0) (throughTapes d image parse size load k cmp l)).
  { intros cmp l P HP Ha Ht. unfold throughTapes.
    destruct (C56_sorted T d cmp image parse size false P sort_memtuples) with (tapes := k) (loads := load l) as (out & E & Po & So); auto.
    - destruct Hf as [F1 F2]. split; auto.
    - intros r Hr. split; [apply sort_mem_perm|apply (sort_mem_sorted cmp P r Ha Ht Hr)].
    - apply Forall_forall. intros r Hr. apply Forall_forall. intros x Hx. rewrite Forall_forall in HP. apply HP. rewrite <- (Hl l). apply in_concat. exists r. auto.
    - rewrite E. rewrite Hl in Po. auto. }
  split.
  - intros cmp l OK. destruct (G cmp l (fun _ => True)) as [p s].
    + apply Forall_forall. auto.
    + intros x y _ _. apply (tc_anti _ OK).
    + intros x y z _ _ _. apply (tc_trans _ OK).
    + split; [apply Permutation_sym; exact p|exact s].
  - intros cmp l _ _ Ht Ha. apply (G cmp l (fun x => In x l)); auto. apply Forall_forall. auto.
Qed.
Print Assumptions C56_sort_of_the_scans.

(** Forty rows in nine memory loads, one empty, on three tapes: two passes.  With equal vectors. *)
Definition sval (v : N) : float8 := of_int (Z.of_N v).
Definition s_row (i : nat) : sortItem := (mkIp (70000 * N.of_nat i) (N.of_nat (i mod 4 + 1)), Nat.eqb (i mod 3) 0, [N.of_nat ((i * 37) mod 11); N.of_nat (i mod 5)]).
Definition s_loads : list (list sortItem) := [] :: map (fun b => map s_row (seq (5 * b) 5)) (seq 0 8).
Definition s_first : sortItem := (mkIp 0 0, false, []).
Example C56_hypotheses_met :
  Forall (Forall (fun it : sortItem => ip_ok (fst (fst it)) /\ length (snd it) = 2%nat /\ Forall (fun v => (v < 2 ^ 64)%N) (snd it) /\ ~ In S754_nan (map sval (snd it)))) s_loads /\
  length s_loads = 9%nat /\
  match spillSort s_first (fun a b => comparetup_false (valued sval a) (valued sval b)) (imageItem 170%N) (parseItem 2) (RumSortItemSize 2) false sort_memtuples 3 s_loads with
  | Some out => firstn 6 (map snd out) = [[0; 0]; [0; 1]; [0; 2]; [0; 3]; [1; 0]; [1; 1]]%N /\ out = sort_memtuples (fun a b => comparetup_false (valued sval a) (valued sval b)) (concat s_loads)
  | None => False
  end /\
  tape_format (fun b : bool => [if b then 1%N else 0%N]) (existsb (N.eqb 1)) 1 (fun _ => True) /\
  throughTapes false (fun b : bool => [if b then 1%N else 0%N]) (existsb (N.eqb 1)) 1 (map (fun x => [x])) 2 (fun a b => Z.b2z a - Z.b2z b) [true; false; true; true; false] = [false; false; true; true; true].
Proof.
  split.
  - assert (H : forallb (forallb (fun it : sortItem => ip_okb (fst (fst it)) && Nat.eqb (length (snd it)) 2 && forallb (fun v => N.ltb v (2 ^ 64)) (snd it) &&
      negb (existsb (fun x => match x with S754_nan => true | _ => false end) (map sval (snd it))))) s_loads = true) by (vm_compute; reflexivity).
    rewrite forallb_forall in H. apply Forall_forall. intros l Hl. specialize (H l Hl). rewrite forallb_forall in H. apply Forall_forall. intros it Hin. specialize (H it Hin).
    apply andb_true_iff in H as [H H4]. apply andb_true_iff in H as [H H3]. apply andb_true_iff in H as [H1 H2].
    unfold ip_okb in H1. apply andb_true_iff in H1 as [H1 H1']. split; [split; [apply N.ltb_lt, H1|apply N.ltb_lt, H1']|]. split; [apply Nat.eqb_eq, H2|]. split.
    + rewrite forallb_forall in H3. apply Forall_forall. intros v Hv. apply N.ltb_lt. exact (H3 v Hv).
    + intro Hn. rewrite (proj2 (existsb_exists _ _)) in H4; [discriminate|]. exists S754_nan. split; [exact Hn|reflexivity].
  - split; [reflexivity|]. split; [vm_compute; auto|]. split; [|vm_compute; reflexivity].
    split; [reflexivity|]. intros [|] _; split; reflexivity.
Qed.
