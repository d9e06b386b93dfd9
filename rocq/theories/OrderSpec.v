(** What a query with ORDER BY distance has to return (C27). *)
From Verif Require Import Base Ord Codec Entries Bulk BulkSpec EntryTree ScanEntry Scan IndexScan OrderScan QuerySpec.
From Coq Require Import NArith ZArith Bool List Permutation Sorted.
Import ListNotations.
Local Open Scope Z_scope.

Section Spec.
  Context {K D : Type}.
  Variable compareFn : N -> K -> K -> Z.
  Variables (dcmp : D -> D -> Z) (dinf : D).
  Variable dflt : K.
  Variables (addTo attach : N) (curKeyOrdering : N -> bool).
  Notation hrow := (@hrow K datum).
  Notation ordering := (ordering K D).
  Notation att o := (cl_att (od_clause o)).

  (** Vectors of distances are compared like words in a dictionary. *)
  Fixpoint lex_le (a b : list D) : Prop :=
    match a, b with
    | [], _ => True
    | x :: a', y :: b' => dcmp x y < 0 \/ (dcmp x y = 0 /\ lex_le a' b')
    | _ :: _, [] => False
    end.
  (** The distance of row [r]: by the attached value; by the row's key in the ordering's column; or what
      the operator class says about the ordering's query keys ([V]: what they show of the row).  NULLs are
      infinitely far. *)
  Definition distance_of (V : qreq K -> option (option datum)) (r : hrow) (o : ordering) (d : D) : Prop :=
    if (att o =? attach)%N then d = match r_attach r with Some a => od_outer o a | None => dinf end
    else if curKeyOrdering (att o) then
      exists e, In e (row_pairs addTo r) /\ k_att (fst e) = att o /\
        d = match k_cat (fst e) with CatNormKey => od_curkey o (k_val (fst e)) | _ => dinf end
    else d = od_fn o (map (fun v => V (reqOf (att o) v)) (cl_vals (od_clause o))).
  (** It comes from query keys. *)
  Definition keyed (o : ordering) : bool := negb (bare attach curKeyOrdering (od_clause o)).

  (** The orderings that are not dropped (NULL argument). *)
  Definition lives (orders : list ordering) : list ordering := filter (fun o => negb (noKey (od_clause o))) orders.
  Record orders_covered (table : list hrow) (conds : list (clause K)) (orders : list ordering) : Prop := {
    (** ordering by the attached column: with a condition on the column it is attached to *)
    oc_attached : forall o, In o (lives orders) -> att o = attach -> exists c, In c conds /\ cl_att c = addTo;
    (** together with an ordering by query keys on that column: no NULL values *)
    oc_null : forall o o', In o (lives orders) -> In o' (lives orders) -> att o = attach -> keyed o' = true -> att o' = addTo ->
      forall r, In r table -> r_attach r <> None;
    (** ordering by the key: the first condition on the column has one query key (otherwise the scan raises an
        error); rows have at most one key there; distances of equal keys are equal *)
    oc_key : forall o, In o (lives orders) -> att o <> attach -> curKeyOrdering (att o) = true ->
      (exists pre c post, conds = pre ++ c :: post /\ cl_att c = att o /\ (forall c', In c' pre -> cl_att c' <> att o) /\ length (requests dflt c) = 1%nat) /\
      (forall r e e', In r table -> In e (row_pairs addTo r) -> In e' (row_pairs addTo r) -> k_att (fst e) = att o -> k_att (fst e') = att o -> e = e') /\
      (forall k k', compareFn (att o) k k' = 0 -> od_curkey o k = od_curkey o k');
    (** all orderings by key on one column, and none by the attached column beside them *)
    oc_one : forall o o', In o (lives orders) -> In o' (lives orders) -> att o <> attach -> curKeyOrdering (att o) = true ->
      att o' <> attach /\ (curKeyOrdering (att o') = true -> att o' = att o) }.
End Spec.
(** What is assumed of the sort of the found rows: for a comparison that is a total preorder on the items. *)
Definition sorts_items {T} (sortItems : (T -> T -> Z) -> list T -> list T) : Prop :=
  forall cmp l, (forall x, In x l -> cmp x x <= 0) -> (forall x y, In x l -> In y l -> cmp x y <= 0 \/ cmp y x <= 0) ->
    (forall x y z, In x l -> In y l -> In z l -> cmp x y <= 0 -> cmp y z <= 0 -> cmp x z <= 0) ->
    (forall x y, In x l -> In y l -> cmp x y < 0 <-> 0 < cmp y x) ->
    Permutation (sortItems cmp l) l /\ StronglySorted (fun a b => cmp a b <= 0) (sortItems cmp l).
