(** What makes a distance (C26). *)
From Coq Require Import ZArith QArith Qabs.
From Verif Require Import ScalarTypes.
Local Open Scope Z_scope.

(** What is used of the rounding of real numbers to doubles: it respects the order, is exact on integers
    up to 2^53, and no number of the smallest double's size or more is rounded to 0. *)
Record rounding (rnd : Q -> Q) : Prop := {
  r_mono : forall x y, (x <= y)%Q -> (rnd x <= rnd y)%Q;
  r_int : forall n, Z.abs n <= 2 ^ 53 -> (rnd (inject_Z n) == inject_Z n)%Q;
  r_nonzero : forall x, (1 # (2 ^ 1074) <= Qabs x)%Q -> ~ (rnd x == 0)%Q }.
Definition deq (a b : dist) : Prop := match a, b with DFin x, DFin y => (x == y)%Q | DInf, DInf => True | _, _ => False end.
(** A finite float: a multiple of the smallest one. *)
Definition is_float (q : Q) : Prop := exists n : Z, (q == n # (2 ^ 1074))%Q.
(** [le] is the order of the values, [d], [dl], [dr] are <=>, <=| and |=> : [d] is symmetric, not negative,
    zero exactly on equal values; [dl] is [d] when the first argument is not above, else infinite; [dr] is
    [d] when the first argument is above, else infinite. *)
Definition true_distance {T} (lt : T -> T -> Prop) (eq : T -> T -> Prop) (ok : T -> Prop) (d dl dr : T -> T -> dist) : Prop :=
  forall a b, ok a -> ok b ->
  deq (d a b) (d b a) /\ (match d a b with DFin q => (0 <= q)%Q | DInf => False end) /\ (deq (d a b) (DFin 0) <-> eq a b) /\
  (~ lt b a -> deq (dl a b) (d a b)) /\ (lt b a -> dl a b = DInf) /\
  (lt b a -> deq (dr a b) (d a b)) /\ (~ lt b a -> dr a b = DInf).

(** The start value of a class is not above any value a column can hold (C25). *)
Definition starts_minimal (c : scalarClass) : Prop := forall v, c_valid c v -> c_cmp c (c_left c) v <= 0.
(** Finite floats, their order; timestamps that are not infinite and in a window of 2^63 microseconds. *)
Definition flt_ok (a : flt) : Prop := match a with FFin q => is_float q | _ => False end.
Definition flt_lt (a b : flt) : Prop := match a, b with FFin x, FFin y => (x < y)%Q | _, _ => False end.
Definition flt_eq (a b : flt) : Prop := match a, b with FFin x, FFin y => (x == y)%Q | _, _ => False end.
Definition ts_ok (lo a : Z) : Prop := (lo <= a < lo + 2 ^ 63)%Z /\ timestamp_infinite a = false.
