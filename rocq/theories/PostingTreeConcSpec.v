(** Specification vocabulary for overlapping insertions into one posting tree (C53). *)
From Verif Require Import Base Ord Codec CodecSpec LeafSpec LeafCodec BTree BTreeConc PostingTree PostingTreeSpec PostingTreeConc.
From Coq Require Import NArith ZArith List.
Import ListNotations.

(** The session is past its change of the leaf: its row is in the tree (or was there already). *)
Definition written (w : writer row) : Prop := match w with WDown _ _ _ => False | _ => True end.
(** The session ended with an error. *)
Definition failed (w : writer row) : Prop := w = WLost \/ w = WBroken.
(** Each of [n] sessions gets its turn again and again ([f t]: whose turn it is at moment [t]). *)
Definition fair (n : nat) (f : nat -> nat) : Prop := forall i t, i < n -> exists u, t <= u /\ f u = i.
Definition all_done (ws : list (writer row)) : Prop := forall i w, nth_error ws i = Some w -> w = WDone.

(** What the tree holds while the sessions are at work: the rows [old] it held before and a row for
    every session that is past its leaf change, nothing else; in order, each once. *)
Definition holds_so_far (alt : bool) (a : attr) (cmpA : datum -> datum -> Z) (old rows : list row)
    (st : list (page row)) (ws : list (writer row)) : Prop :=
  exists stored, tree_is alt a cmpA st stored /\ incl old stored /\
    (forall y, In y stored -> In y old \/ exists i w, nth_error rows i = Some y /\ nth_error ws i = Some w /\ written w) /\
    (forall i x w, nth_error rows i = Some x -> nth_error ws i = Some w -> written w ->
       exists y, In y stored /\ compareRumItem alt cmpA y x = 0%Z).

(** The states of the tree while the sessions are at work: the first one and that after each turn. *)
Definition states (alt : bool) (a : attr) (cmpA : datum -> datum -> Z) (build : bool) (st : list (page row)) (rows : list row)
    (turns : list nat) : list (list (page row)) :=
  map (fun n => fst (ptOverlap alt a cmpA build st rows (firstn n turns))) (seq 0 (S (length turns))).
