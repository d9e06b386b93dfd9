(** Specification vocabulary for index builds (C16, C17, C39). *)
From Verif Require Import Base Ord Entries Bulk.
From Coq Require Import Permutation Sorted.
Local Open Scope N_scope.

Section Spec.
  Context {K A : Type}.
  Variable compareFn : N -> K -> K -> Z.
  Variable addTo : N.
  Notation hrow := (@hrow K A).

  (** All (key, item) pairs of a heap row: every key of every column with the row's address and
      the key's attached value (the attach column's value in the addTo column). *)
  Fixpoint col_pairs (r : hrow) (att : N) (cols : list (list (@stored K A))) : list (ekey K * item A) :=
    match cols with
    | [] => []
    | es :: rest =>
        map (fun '(k, c, a) => (mkKey att k c, mkItem (r_tid r) (if att =? addTo then r_attach r else a))) es
        ++ col_pairs r (att + 1) rest
    end.
  Definition row_pairs (r : hrow) : list (ekey K * item A) := col_pairs r 1 (r_cols r).

  (** The index items that key [k] must get from [rows]. *)
  Definition rows_for (k : ekey K) (rows : list hrow) : list (item A) :=
    map snd (filter (fun e => (rumCompareAttEntries compareFn (fst e) k =? 0)%Z) (flat_map row_pairs rows)).
  (** What a sequence of (key, items) insertions gives to key [k]. *)
  Definition given_to (k : ekey K) (calls : list (ekey K * list (item A))) : list (item A) :=
    concat (map snd (filter (fun e => (rumCompareAttEntries compareFn (fst e) k =? 0)%Z) calls)).

  (** Rows as extraction delivers them (C18): within a column the keys are strictly ascending;
      their number fits an int. *)
  Definition hrow_ok (r : hrow) : Prop :=
    forall i es, nth_error (r_cols r) i = Some es -> N.of_nat (length es) < 2 ^ 31 /\
      ssorted (fun a b : @stored K A => rumCompareEntries (compareFn (N.of_nat i + 1)) (fst (fst a)) (snd (fst a)) (fst (fst b)) (snd (fst b))) es.
End Spec.

(** What is assumed of qsort with a total order. *)
Definition sorter {T} (qsort : (T -> T -> Z) -> list T -> list T) : Prop :=
  forall cmp l, total_cmp cmp -> Permutation l (qsort cmp l) /\ StronglySorted (fun a b => (cmp a b <= 0)%Z) (qsort cmp l).
