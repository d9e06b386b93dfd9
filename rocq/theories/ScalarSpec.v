(** What the scalar operators mean (C24). *)
From Verif Require Import Base Codec Entries Bulk BulkSpec Scalar.
From Coq Require Import NArith ZArith Bool List.
Import ListNotations.
Local Open Scope Z_scope.

(** [r] compares the stored value with the constant. *)
Definition op_holds (s : strategy) (r : Z) : Prop :=
  match s with SLess => r < 0 | SLessEqual => r <= 0 | SEqual => r = 0 | SGreaterEqual => 0 <= r | SGreater => 0 < r end.
(** The condition holds of the value of its column in the row; on the attached column, when the query also
    has a condition on the column it is attached to, of the attached value. *)
Definition scalar_holds {K} (compareFn : N -> K -> K -> Z) (cmpA : datum -> datum -> Z) (addTo attach : N)
  (conds : list (scond K)) (r : @hrow K datum) (s : scond K) : Prop :=
  if ((sc_att s =? attach) && existsb (fun s' => sc_att s' =? addTo) conds)%N
  then exists a, r_attach r = Some a /\ op_holds (sc_op s) (cmpA a (sc_dat s))
  else exists e, In e (row_pairs addTo r) /\ k_att (fst e) = sc_att s /\ k_cat (fst e) = CatNormKey /\
         op_holds (sc_op s) (compareFn (sc_att s) (k_val (fst e)) (sc_key s)).
