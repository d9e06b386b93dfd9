(** The scalar operator classes (btree_rum.c): query keys of the comparison operators, partial match.  Model
    file: no proofs. *)
From Verif Require Import Base Codec ScanEntry Scan IndexScan.
From Coq Require Import NArith ZArith Bool List.
Import ListNotations.
Local Open Scope Z_scope.

(** BTLessStrategyNumber ... BTGreaterStrategyNumber (1-5); the distance strategies are orderings. *)
Inductive strategy := SLess | SLessEqual | SEqual | SGreaterEqual | SGreater.

(** rum_btree_compare_prefix (btree_rum.c:134-197): [datum] is the operator's argument (QueryInfo), [a] the
    query key, [b] the indexed value. *)
Definition compare_prefix {T} (typecmp : T -> T -> Z) (s : strategy) (datum a b : T) : Z :=
  let cmp := typecmp (match s with SLess | SLessEqual => datum | _ => a end) b in
  match s with
  | SLess => if 0 <? cmp then 0 else 1
  | SLessEqual => if 0 <=? cmp then 0 else 1
  | SEqual => if negb (cmp =? 0) then 1 else 0
  | SGreaterEqual => if cmp <=? 0 then 0 else 1
  | SGreater => if cmp <? 0 then 0 else if cmp =? 0 then -1 else 1
  end.
(** rum_btree_extract_query (btree_rum.c:78-127): the query key and whether it is a partial match. *)
Definition extract_query {T} (leftmostvalue : T) (s : strategy) (datum : T) : T * bool :=
  match s with
  | SLess | SLessEqual => (leftmostvalue, true)
  | SGreaterEqual | SGreater => (datum, true)
  | SEqual => (datum, false)
  end.
(** rum_btree_consistent (btree_rum.c:200-206). *)
Definition btree_consistent (v : list (option (option datum))) : bool * bool := (true, false).

(** A condition "column [sc_att] op constant"; the constant is given as a key and, for the attached
    column, as a datum of the same type. *)
Record scond (K : Type) := mkScond { sc_att : N; sc_op : strategy; sc_key : K; sc_dat : datum }.
Arguments mkScond {K}. Arguments sc_att {K}. Arguments sc_op {K}. Arguments sc_key {K}. Arguments sc_dat {K}.

(** What the operator class makes of it: one query key, search mode default, comparePartialFn on keys and on
    attached values ([a] is then the query key, which for > >= = is the constant). *)
Definition scalarClause {K} (compareFn : N -> K -> K -> Z) (leftmost : N -> K) (cmpA : datum -> datum -> Z) (s : scond K) : clause K :=
  let '(start, partial) := extract_query (leftmost (sc_att s)) (sc_op s) (sc_key s) in
  mkClause (sc_att s) false
    [mkQval start false (if partial then Some (compare_prefix (compareFn (sc_att s)) (sc_op s) (sc_key s) start) else None)
       (compare_prefix cmpA (sc_op s) (sc_dat s) (sc_dat s))]
    0 btree_consistent None.
