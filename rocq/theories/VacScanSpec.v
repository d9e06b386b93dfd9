(** Specification vocabulary for scans of vacuumed posting trees (C41). *)
From Verif Require Import Base Codec BTree PostingTree.
From Coq Require Import NArith List.
Import ListNotations.

(** A scan that starts on an empty leaf page takes its current row from uninitialised memory.  [junk_ok st junk]: the tree's
    first leaf is not empty; or the memory holds an item pointer that is not null and belongs to no row of the tree; or it
    holds a null one and the second leaf, if there is one, is not empty. *)
Definition junk_ok (st : list (page row)) (junk : row) : Prop :=
  forall b pg, leftmostLeaf (S (length st)) st 0 = Some b -> nth_error st b = Some pg -> p_items pg = [] ->
    (off (ip junk) <> 0%N /\ forall rows, ptScan st = Some rows -> forall y, In y rows -> ip y <> ip junk) \/
    (off (ip junk) = 0%N /\ forall c pg', p_right pg = Some c -> nth_error st c = Some pg' -> p_items pg' <> []).
