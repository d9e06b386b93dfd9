(** A query without conditions, ordered by distance: what the claim (C55) covers.  [lives], [distance_of], [lex_le]:
    OrderSpec.v; [has_column1]: QuerySpec.v. *)
From Verif Require Import Base Ord Codec Entries Bulk BulkSpec BTree PostingTree EntryTree ScanEntry Scan IndexScan OrderScan OrderSpec QuerySpec.
From Coq Require Import NArith ZArith Bool List.
Local Open Scope Z_scope.

Section Spec.
  Context {K D : Type}.
  Variable compareFn : N -> K -> K -> Z.
  Variables (addTo attach : N) (curKeyOrdering : N -> bool).
  Notation att o := (cl_att (od_clause o)).
  Record full_covered (table : list (@hrow K datum)) (orders : list (ordering K D)) : Prop := {
    (** an ordering that is not dropped *)
    fc_some : lives orders <> nil;
    (** none by query keys *)
    fc_kind : forall o, In o (lives orders) -> keyed attach curKeyOrdering o = false;
    (** by the attached value: it is attached to column 1 *)
    fc_attached : forall o, In o (lives orders) -> att o = attach -> addTo = 1%N;
    (** by the key: of column 1, of which rows have at most one; distances of equal keys are equal *)
    fc_key : forall o, In o (lives orders) -> att o <> attach -> att o = 1%N /\
      (forall r e e', In r table -> In e (row_pairs addTo r) -> In e' (row_pairs addTo r) -> k_att (fst e) = 1%N -> k_att (fst e') = 1%N -> e = e') /\
      (forall k k', compareFn 1%N k k' = 0 -> od_curkey o k = od_curkey o k');
    (** not both *)
    fc_one : forall o o', In o (lives orders) -> In o' (lives orders) -> att o = attach -> att o' = attach }.

  (** What VACUUM must have left in column 1: a row for each key there has been ([ever]: the rows that were in the table
      at some time), and rows in the first leaf of each posting tree. *)
  Record column1_alive (ever table : list (@hrow K datum)) (ix : @istate K) : Prop := {
    ca_keys : forall e, In e (flat_map (row_pairs addTo) ever) -> k_att (fst e) = 1%N ->
      exists e', In e' (flat_map (row_pairs addTo) table) /\ rumCompareAttEntries compareFn (fst e') (fst e) = 0;
    ca_pages : forall tuples t n st b pg, allTuples ix = Some tuples -> In t tuples -> k_att (t_key t) = 1%N -> t_data t = PTree n ->
      nth_error (i_trees ix) n = Some st -> leftmostLeaf (S (length st)) st 0 = Some b -> nth_error st b = Some pg -> p_items pg <> nil }.
End Spec.
