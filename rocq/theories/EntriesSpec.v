(** Specification vocabulary for key extraction (C18). *)
From Verif Require Import Base Ord Entries.
From Coq Require Import Permutation Sorted.

(** What is assumed of qsort_arg called with a total order: a sorted rearrangement, and every
    pair of equal elements shows up as an equal comparison (else the sort could not know their
    order). *)
Definition sorts {K A} (compareFn : K -> K -> Z) (qsort : list (@keyEntry K A) -> list keyEntry) (haveDups : list keyEntry -> bool) : Prop :=
  forall l, Permutation l (qsort l) /\
    StronglySorted (fun a b => (cmpEntries compareFn a b <= 0)%Z) (qsort l) /\
    (haveDups l = false -> ForallOrdPairs (fun x y => cmpEntries compareFn x y <> 0%Z) l).
