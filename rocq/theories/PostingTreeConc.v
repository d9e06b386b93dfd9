(** Several sessions insert into one posting tree at the same time.  Model file: no proofs.
    BTreeConc.v with the page functions of a posting tree (PostingTree.v). *)
From Verif Require Import Base Codec LeafPage LeafCodec BTree PostingTree BTreeConc.
From Coq Require Import NArith ZArith List.
Import ListNotations.

Section PostingConc.
  Variables (alt : bool) (a : attr) (cmpA : datum -> datum -> Z) (build : bool).
  Notation cmp := (compareRumItem alt cmpA).

  (** One step of a session inside rumInsertItemPointers (rumdatapage.c:1511-1547); [None]: the
      session waits for a page that another one has locked. *)
  Definition ptAct : (nat -> bool) -> list (page row) -> nat -> writer row -> option (list (page row) * writer row) :=
    act cmp (@p_bound _) (pt_ienough) item_min (pt_locate alt cmpA) (findOnPage alt cmpA) (pt_leafEnough alt a)
      (pt_leafPlace alt a cmpA) (splitPage alt a) (pt_isep build) pt_rkey.
  (** Sessions number 0, 1, ... insert one row each ([rows]); [sched] tells whose turn it is. *)
  Definition ptOverlap (st : list (page row)) (rows : list row) (sched : list nat) : list (page row) * list (writer row) :=
    overlap cmp (@p_bound _) (pt_ienough) item_min (pt_locate alt cmpA) (findOnPage alt cmpA) (pt_leafEnough alt a)
      (pt_leafPlace alt a cmpA) (splitPage alt a) (pt_isep build) pt_rkey 0 st rows sched.
End PostingConc.
