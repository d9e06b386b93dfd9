(** The sorting of the rows found by a scan (rumsort.c, tuplesort96.c, tuplesort10.c to tuplesort13.c).  Model file: no proofs.
    Modelled: the sort in memory; runs on tape and their merge, used when the rows do not fit work_mem, are in
    Spill.v.  Not modelled: the parallel sort, and the sort template that tuplesort14.c, tuplesort15.c and later versions of PostgreSQL
    include, which is not in this repository. *)
From Coq Require Import ZArith List Floats.SpecFloat.
From Verif Require Import Base Array OrderScan Qsort.
Import ListNotations.

(** v1 < v2, v1 > v2 on float8 (rumsort.c:163-170): both are false if one is a NaN. *)
Definition fltcmp (v1 v2 : float8) : Z := if SFltb v1 v2 then (-1)%Z else if SFltb v2 v1 then 1%Z else 0%Z.
(** comparetup_rum_false (rumsort.c:200-205).  Simplification: datum1, a copy of the first distance (copytup_rum,
    rumsort.c:257-267), is the first element of the list of distances. *)
Definition comparetup_false (a b : @sitem float8) : Z := comparetup_rum fltcmp (snd a) (snd b).
(** tuplesort_sort_memtuples (tuplesort13.c:3480-3497; likewise in the older files; rumsort.c never sets onlyKey):
    qsort_tuple on the array of tuples. *)
Definition sort_memtuples {T} (cmp : T -> T -> Z) (l : list T) : list T :=
  match l with [] => [] | x :: _ => sort_tuples x cmp l end.
