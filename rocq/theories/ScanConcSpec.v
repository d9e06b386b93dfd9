(** Specification vocabulary for C51: scanning a posting tree while rows are inserted. *)
From Verif Require Import Base Ord Codec CodecSpec LeafPage LeafSpec LeafCodec BTree PostingTree PostingTreeSpec.
From Coq Require Import NArith ZArith List.
Import ListNotations.

(** The states a tree goes through after [st] while insertions run one after another, each logged change
    being a state; an insertion may stop after any number of changes (crash, or the "Lost path" error). *)
Inductive inserting (alt : bool) (a : attr) (cmpA : datum -> datum -> Z) : list (page row) -> list (list (page row)) -> Prop :=
| ins_none st : inserting alt a cmpA st []
| ins_more st build batch tr lost n later : valid_batch alt a cmpA batch ->
    ptInsert alt a cmpA build st batch = Some (tr, lost) ->
    inserting alt a cmpA (last (firstn n tr) st) later ->
    inserting alt a cmpA st (firstn n tr ++ later).

(** Page reads of one process: the t-th read sees the state number [tau t], never an earlier one than the read
    before it. *)
Definition observed {S} (states : list S) (sched : nat -> S) : Prop :=
  exists tau : nat -> nat, (forall t t', t <= t' -> tau t <= tau t') /\ forall t, nth_error states (tau t) = Some (sched t).

(** The root page of the tree is a leaf. *)
Definition leaf_root (st : list (page row)) : bool := match get st 0 with Some pg => p_leaf pg | None => false end.
(** If the tree is one page at the first of the page reads, it is one page at all of them. *)
Definition settled (sched : nat -> list (page row)) : Prop := leaf_root (sched 0) = true -> forall t, leaf_root (sched t) = true.
