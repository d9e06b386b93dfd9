(** C10-C13: the posting tree of one key, its insertions and crashes.
    Vocabulary: PostingTreeSpec.v; model: BTree.v, PostingTree.v. *)
From Verif Require Import Base Ord Codec CodecSpec LeafSpec LeafCodec BTree PostingTree PostingTreeSpec
  PostingTreeProof PropTreeProof.
From Coq Require Import NArith ZArith List.
Import ListNotations.

(** C10.  On an internal page [ds ++ [lst]] with ascending recorded bounds (the last one counts
    as +infinity whatever it holds) the chosen child is the first whose bound is not below [x],
    or the last child. *)
Theorem C10_descent_choice : forall (T : Type) (cmp : T -> T -> Z), total_cmp cmp ->
  forall (ds : list (T * nat)) (lst : T * nat) (x : T), ssorted cmp (map fst ds) ->
  let d := ds ++ [lst] in let o := dataLocateItem cmp d x in
  (1 <= o <= length d)%nat /\
  (forall i k c, (i < o - 1)%nat -> nth_error d i = Some (k, c) -> (cmp k x < 0)%Z) /\
  ((o < length d)%nat -> exists k c, nth_error d (o - 1) = Some (k, c) /\ (cmp x k <= 0)%Z).
Proof. exact (fun T => @locate_sorted T). Qed.
Print Assumptions C10_descent_choice.

Example C10_instance :
  let d := map (fun i => (Z.of_nat (10 * i), i)) (seq 1 7) in
  let cmp := fun x y => (x - y)%Z in
  map (dataLocateItem cmp d) [-5; 10; 11; 30; 45; 60; 61; 70; 999]%Z = [1; 1; 2; 3; 5; 6; 7; 7; 7]%nat.
Proof. reflexivity. Qed.

(** C11.  After any history of insertions into a fresh posting tree the tree holds exactly the
    rows inserted, once each, in order; lookups agree; no insertion fails. *)
Theorem C11_posting_tree_holds_inserted : forall alt a cmpA,
  config_ok alt a -> total_cmp cmpA -> safe_align a ->
  forall (rows : list row) (hist : list (bool * list row)),
  ssorted (compareRumItem alt cmpA) rows -> Forall (storable alt a) rows -> fits_page alt a rows ->
  Forall (fun h => valid_batch alt a cmpA (snd h)) hist ->
  exists st, ptRun alt a cmpA (createPostingTree rows) hist = Some st /\
    tree_holds alt a cmpA st (rows ++ concat (map snd hist)).
Proof. exact posting_tree_history. Qed.
Print Assumptions C11_posting_tree_holds_inserted.

(** The size bound in [storable] is met by every row when the attached column is passed by value
    (in particular by every column order_by_attach accepts). *)
Theorem C11_byval_rows_storable : forall alt n x, row_ok alt (AByVal n) x -> storable alt (AByVal n) x.
Proof. exact byval_small. Qed.
Print Assumptions C11_byval_rows_storable.

(** A history that splits leaves and the root: six rows of 2000 bytes. *)
Example C11_hypotheses_met :
  Forall (fun h => valid_batch false big_attr zcmp (snd h)) (singles [3; 1; 5; 2; 6; 4; 3]%N) /\
  exists st, ptRun false big_attr zcmp (createPostingTree []) (singles [3; 1; 5; 2; 6; 4; 3]%N) = Some st /\
    option_map (map (fun r => blk (ip r))) (ptScan st) = Some [1; 2; 3; 4; 5; 6]%N /\ (length st > 2)%nat.
Proof. exact C11_example. Qed.

(** C12.  The state after every logged change of an insertion holds exactly the rows of all
    completed insertions and a non-empty prefix of the batch being inserted: before its first
    logged change nothing of it. *)
Theorem C12_crash_during_insertion : forall alt a cmpA,
  config_ok alt a -> total_cmp cmpA -> safe_align a ->
  forall (rows : list row) (hist : list (bool * list row)) (build : bool) (batch : list row),
  ssorted (compareRumItem alt cmpA) rows -> Forall (storable alt a) rows -> fits_page alt a rows ->
  Forall (fun h => valid_batch alt a cmpA (snd h)) hist -> valid_batch alt a cmpA batch ->
  exists st tr, ptRun alt a cmpA (createPostingTree rows) hist = Some st /\
    ptInsert alt a cmpA build st batch = Some (tr, false) /\
    tree_holds alt a cmpA st (rows ++ concat (map snd hist)) /\
    forall s, In s tr -> exists u v, batch = u ++ v /\ u <> [] /\
      tree_holds alt a cmpA s (rows ++ concat (map snd hist) ++ u).
Proof. exact posting_tree_crash_full. Qed.
Print Assumptions C12_crash_during_insertion.

(** The ordinary (not bulk) insertion adds one row: a crash leaves it wholly stored or absent. *)
Theorem C12_single_row_atomic : forall alt a cmpA,
  config_ok alt a -> total_cmp cmpA -> safe_align a ->
  forall (rows : list row) (hist : list (bool * list row)) (build : bool) (x : row),
  ssorted (compareRumItem alt cmpA) rows -> Forall (storable alt a) rows -> fits_page alt a rows ->
  Forall (fun h => valid_batch alt a cmpA (snd h)) hist -> storable alt a x ->
  exists st tr, ptRun alt a cmpA (createPostingTree rows) hist = Some st /\
    ptInsert alt a cmpA build st [x] = Some (tr, false) /\
    tree_holds alt a cmpA st (rows ++ concat (map snd hist)) /\
    forall s, In s tr -> tree_holds alt a cmpA s (rows ++ concat (map snd hist) ++ [x]).
Proof. exact posting_tree_crash1. Qed.
Print Assumptions C12_single_row_atomic.

(** C12, any number of crashes: a tree reached through completed, crashed and failed insertions
    holds every acknowledged row and only rows whose insertion was attempted; it is sorted and
    scan and lookup agree on it. *)
Theorem C12_crash_histories : forall alt a cmpA,
  config_ok alt a -> total_cmp cmpA -> safe_align a ->
  forall st acked tried, reaches alt a cmpA st acked tried ->
  exists rows, tree_is alt a cmpA st rows /\
    (forall x, In x acked -> exists y, In y rows /\ compareRumItem alt cmpA y x = 0%Z) /\
    (forall x, In x rows -> In x tried).
Proof. exact (fun alt a cmpA Hc HA Hs st acked tried Hr => proj1 (reaches_tree alt a cmpA Hc HA Hs st acked tried Hr)). Qed.
Print Assumptions C12_crash_histories.

(** C13, partial: on every tree so reached an insertion neither loops nor reads a bad page: it
    completes, or ends with the "Lost path" error ([lost]); the first claim of C12_crash_histories
    holds of all its intermediate states.  Missing: that it does not end with the error, which is
    false (below). *)
Theorem C13_insertion_after_crash_partial : forall alt a cmpA,
  config_ok alt a -> total_cmp cmpA -> safe_align a ->
  forall st acked tried, reaches alt a cmpA st acked tried ->
  forall build batch, valid_batch alt a cmpA batch ->
  exists tr lost, ptInsert alt a cmpA build st batch = Some (tr, lost).
Proof. exact (fun alt a cmpA Hc HA Hs st acked tried Hr => proj2 (reaches_tree alt a cmpA Hc HA Hs st acked tried Hr)). Qed.
Print Assumptions C13_insertion_after_crash_partial.

(** C13 is false: after a crash between a leaf split and the parent update the right half has no
    downlink; when it later fills up, its insertion ends with the error. *)
Theorem C13_half_split_refuted : exists st acked tried x,
  reaches false big_attr zcmp st acked tried /\ valid_batch false big_attr zcmp [x] /\
  exists tr, ptInsert false big_attr zcmp false st [x] = Some (tr, true).
Proof.
  exact (ex_intro _ half_split9 (ex_intro _ _ (ex_intro _ _ (ex_intro _ (bigrow 10) half_split_lost)))).
Qed.
Print Assumptions C13_half_split_refuted.

(** The same trees meet the hypotheses of C12 and C13. *)
Example C12_hypotheses_met :
  config_ok false big_attr /\ total_cmp zcmp /\ safe_align big_attr /\
  reaches false big_attr zcmp half_split9 (map bigrow [1; 2; 3; 4; 5; 6; 8; 9]%N) (map bigrow [1; 2; 3; 4; 5; 6; 7; 8; 9]%N).
Proof. exact C12_example. Qed.
