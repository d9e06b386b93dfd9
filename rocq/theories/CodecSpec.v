(** Specification vocabulary for the posting-list codec theorems (no model helpers):
    which inputs are legal, and what "the same attached value" means. *)
From Verif Require Import Base Codec.
Local Open Scope N_scope.

Definition legal_align (a : N) : Prop := a = 1 \/ a = 2 \/ a = 4 \/ a = 8.

(** A datum of the column's type, as the executor hands it to the index: detoasted
    (the code raises an error for external TOAST pointers), of the declared width. *)
Definition datum_ok (a : attr) (d : datum) : Prop :=
  match a, d with
  | AByVal n, DVal v => (n = 1 \/ n = 2 \/ n = 4 \/ n = 8)%nat /\ v < 2 ^ (8 * N.of_nat n)
  | AFixed n al, DFix bs => legal_align al /\ length bs = n
  | AVar al pk, DVar V1 p => legal_align al /\ nlen p + 1 <= 127
  | AVar al pk, DVar V4U p => legal_align al /\ nlen p + 4 < 2 ^ 30
  | AVar al pk, DVar V4C p => legal_align al /\ nlen p + 4 < 2 ^ 30
  | _, _ => False
  end.

(** Row addresses that fit the machine fields; in the 6-byte layout the top bit of the
    offset carries the NULL flag, heap offsets are far below it. *)
Definition item_ok (alt : bool) (a : attr) (it : item datum) : Prop :=
  ip_ok (ip it) /\ (alt = true -> off (ip it) < 2 ^ 15) /\
  match add it with None => True | Some d => datum_ok a d end.

(** The SQL value a datum stands for: header form (1-byte or 4-byte) is not part of it. *)
Inductive sqlval := SNum (v : N) | SBytes (bs : list byte) | SCompressed (bs : list byte).
Definition value_of (d : datum) : sqlval :=
  match d with
  | DVal v => SNum v
  | DFix bs => SBytes bs
  | DVar V4C p => SCompressed p
  | DVar _ p => SBytes p
  end.
Definition row_of (it : item datum) : iptr * option sqlval :=
  (ip it, match add it with None => None | Some d => Some (value_of d) end).
