(** The posting tree of one key: the page functions of rumdatapage.c plugged into the tree
    code of BTree.v.  Model file: no proofs.

    [alt]: order_by_attach index; [a]: attached column; [cmpA]: its comparison; [build]:
    rumstate->isBuild.  Blocks are numbered within the tree: the root, which createPostingTree
    allocates, is block 0. *)
From Verif Require Import Base Codec LeafPage LeafCodec BTree.
From Coq Require Import NArith ZArith Bool Arith List.
Import ListNotations.

Definition row : Type := item datum.

(** Binary search of dataLocateItem (rumdatapage.c:457-501, non-fullScan path): the last
    downlink counts as +infinity. *)
Fixpoint locate_loop {T} (cmp : T -> T -> Z) (fuel : nat) (d : list (T * nat)) (x : T) (low high : nat) : nat :=
  match fuel with
  | O => high
  | S f =>
      if low <? high then
        let mid := low + (high - low) / 2 in
        let result :=
          if mid =? length d then (-1)%Z
          else match nth_error d (mid - 1) with
               | Some (k, _) => cmp x k
               | None => (-1)%Z
               end in
        if (result =? 0)%Z then mid
        else if (0 <? result)%Z then locate_loop cmp f d x (mid + 1) high
        else locate_loop cmp f d x low mid
      else high
  end.
Definition dataLocateItem {T} (cmp : T -> T -> Z) (d : list (T * nat)) (x : T) : nat :=
  locate_loop cmp (S (length d)) d x 1 (length d + 1).

(** Entries of a posting-tree internal page: (BLCKSZ - header - right bound - opaque) /
    sizeof(RumPostingItem) (RumDataPageGetFreeSpace, rum.h:303-311). *)
Definition internalCapacity : nat := 339.

Section Posting.
  Variables (alt : bool) (a : attr) (cmpA : datum -> datum -> Z) (build : bool).
  Notation cmp := (compareRumItem alt cmpA).

  (** dataIsEnoughSpace (rumdatapage.c:781-811). *)
  Definition pt_leafEnough (items : list row) (x : row) : bool :=
    dataIsEnoughSpaceLeaf alt a x (freeOnPage alt a items).
  Definition pt_ienough (d : list (row * nat)) (k : row) : bool := length d <? internalCapacity.
  (** dataPlaceToPage on a leaf (rumdatapage.c:842-1015). *)
  Definition pt_leafPlace (rm : bool) (bound : row) (items batch : list row) : option (list row * list row) :=
    match placeOnPage alt a cmpA rm bound items batch with
    | Some (items', rest, _) => Some (items', rest)
    | None => None
    end.
  (** Separator of dataSplitPageInternal (rumdatapage.c:1273-1282). *)
  Definition pt_isep (rm : bool) (d : list (row * nat)) : nat :=
    if build && rm then internalCapacity else length d / 2.
  (** rumDataFillRoot (rumdatapage.c:1445-1461): the right bound of the right half. *)
  Definition pt_rkey (bound : row) (items : list row) (d : list (row * nat)) : row := bound.

  Definition pt_locate (rm : bool) (d : list (row * nat)) (x : row) : nat := dataLocateItem cmp d x.

  (** createPostingTree (ruminsert.c:52-100): one leaf page holding the given rows.  The C code
      only asserts that they fit. *)
  Definition createPostingTree (items : list row) : list (page row) :=
    [mkPage true items [] item_min None None false].

  (** rumInsertItemPointers (rumdatapage.c:1511-1547). *)
  Definition ptInsert (st : list (page row)) (batch : list row) : option (list (list (page row)) * bool) :=
    insertAll cmp (@p_bound _) pt_ienough item_min pt_locate (findOnPage alt cmpA) pt_leafEnough pt_leafPlace
      (splitPage alt a) pt_isep pt_rkey st 0 batch.
  (** Descent and in-page search for a row. *)
  Definition ptLookup (st : list (page row)) (x : row) : option bool :=
    lookup cmp (@p_bound _) pt_locate (findOnPage alt cmpA) st 0 x.
  (** Full forward scan. *)
  Definition ptScan (st : list (page row)) : option (list row) := scan st 0.
End Posting.
