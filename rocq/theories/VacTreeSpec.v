(** Specification vocabulary for vacuum of posting trees (C15). *)
From Verif Require Import Base Ord Codec CodecSpec LeafSpec LeafCodec BTree PostingTree PostingTreeSpec VacuumTree.
From Coq Require Import NArith ZArith List.
Import ListNotations.

(** The rows whose heap address the caller does not report dead. *)
Definition alive (dead : iptr -> bool) (x : row) : bool := negb (dead (ip x)).
Definition ptVacuum (dead : iptr -> bool) (st : list (page row)) : option (list (list (page row))) := vacuumTree (alive dead) st 0.

(** Every internal page in use has a child. *)
Definition no_empty_internal (st : list (page row)) : Prop :=
  forall b pg, nth_error st b = Some pg -> p_leaf pg = false -> p_deleted pg = false -> p_downs pg <> [].

(** The leaves met by a scan, from the left. *)
Inductive on_chain (st : list (page row)) : nat -> Prop :=
| on_chain_first b : leftmostLeaf (S (length st)) st 0 = Some b -> on_chain st b
| on_chain_next b pg c : on_chain st b -> nth_error st b = Some pg -> p_right pg = Some c -> on_chain st c.

(** Trees reached by a build (first page, batches), then insertions of single rows that complete, and vacuums with any
    dead set that complete or are cut by a crash after any logged change that leaves no empty internal page.
    [must]: rows inserted and never reported dead since; [may]: rows inserted and not reported dead to a vacuum that
    completed since. *)
Inductive vreaches (alt : bool) (a : attr) (cmpA : datum -> datum -> Z) : list (page row) -> list row -> list row -> Prop :=
| vr_build rows hist st : ssorted (compareRumItem alt cmpA) rows -> Forall (storable alt a) rows -> fits_page alt a rows ->
    Forall (fun h => valid_batch alt a cmpA (snd h)) hist -> ptRun alt a cmpA (createPostingTree rows) hist = Some st ->
    vreaches alt a cmpA st (rows ++ concat (map snd hist)) (rows ++ concat (map snd hist))
| vr_insert st must may build x tr : vreaches alt a cmpA st must may -> storable alt a x ->
    ptInsert alt a cmpA build st [x] = Some (tr, false) ->
    vreaches alt a cmpA (last tr st) (must ++ [x]) (may ++ [x])
| vr_vacuum st must may dead tr : vreaches alt a cmpA st must may -> ptVacuum dead st = Some tr ->
    vreaches alt a cmpA (last tr st) (filter (alive dead) must) (filter (alive dead) may)
| vr_vacuum_cut st must may dead tr s : vreaches alt a cmpA st must may -> ptVacuum dead st = Some tr ->
    In s tr -> no_empty_internal s ->
    vreaches alt a cmpA s (filter (alive dead) must) may.
