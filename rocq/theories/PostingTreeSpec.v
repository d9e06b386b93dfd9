(** Specification vocabulary for posting trees (C10-C13). *)
From Verif Require Import Base Ord Codec CodecSpec LeafSpec LeafCodec BTree PostingTree.
From Coq Require Import NArith ZArith.

(** A row that can be indexed and takes at most about a third of a page (2445 bytes). *)
Definition storable (alt : bool) (a : attr) (x : row) : Prop :=
  row_ok alt a x /\ takes_at_most alt a 2445 x.

(** One insertion: a single row; or, when the attached column needs no alignment, a sorted batch
    (index build). *)
Definition valid_batch (alt : bool) (a : attr) (cmpA : datum -> datum -> Z) (batch : list row) : Prop :=
  ssorted (compareRumItem alt cmpA) batch /\ Forall (storable alt a) batch /\
  ((length batch <= 1)%nat \/ attr_align a = 1%N).

(** [x] is the first row of its kind in the insertion history [ins]. *)
Definition first_of {T} (cmp : T -> T -> Z) (ins : list T) (x : T) : Prop :=
  exists l1 l2, ins = l1 ++ x :: l2 /\ forall y, In y l1 -> cmp y x <> 0%Z.

(** A scan of the tree gives exactly [rows], ascending; descending from the root finds exactly them. *)
Definition tree_is (alt : bool) (a : attr) (cmpA : datum -> datum -> Z) (st : list (page row)) (rows : list row) : Prop :=
  let cmp := compareRumItem alt cmpA in
  ptScan st = Some rows /\ ssorted cmp rows /\
  forall x, storable alt a x -> exists found, ptLookup alt cmpA st x = Some found /\
    (found = true <-> exists y, In y rows /\ cmp y x = 0%Z).

(** The tree holds exactly the rows inserted so far, each once; of equal rows the first. *)
Definition tree_holds (alt : bool) (a : attr) (cmpA : datum -> datum -> Z) (st : list (page row)) (ins : list row) : Prop :=
  exists rows, tree_is alt a cmpA st rows /\
    forall x, In x rows <-> first_of (compareRumItem alt cmpA) ins x.

(** A history of completed insertions (build flag, batch). *)
Fixpoint ptRun (alt : bool) (a : attr) (cmpA : datum -> datum -> Z) (st : list (page row))
    (hist : list (bool * list row)) : option (list (page row)) :=
  match hist with
  | [] => Some st
  | (build, batch) :: h =>
      match ptInsert alt a cmpA build st batch with
      | Some (tr, false) => ptRun alt a cmpA (last tr st) h
      | _ => None
      end
  end.

(** Trees reached through insertions that complete, are cut by a crash after any number of logged
    changes, or end with the "Lost path" error.  [acked]: rows of completed insertions;
    [tried]: rows of all insertions. *)
Inductive reaches (alt : bool) (a : attr) (cmpA : datum -> datum -> Z)
  : list (page row) -> list row -> list row -> Prop :=
| reaches_new rows : ssorted (compareRumItem alt cmpA) rows -> Forall (storable alt a) rows -> fits_page alt a rows ->
    reaches alt a cmpA (createPostingTree rows) rows rows
| reaches_done st acked tried build batch tr : reaches alt a cmpA st acked tried -> valid_batch alt a cmpA batch ->
    ptInsert alt a cmpA build st batch = Some (tr, false) ->
    reaches alt a cmpA (last tr st) (acked ++ batch) (tried ++ batch)
| reaches_cut st acked tried build batch tr lost s : reaches alt a cmpA st acked tried -> valid_batch alt a cmpA batch ->
    ptInsert alt a cmpA build st batch = Some (tr, lost) -> In s tr ->
    reaches alt a cmpA s acked (tried ++ batch).
