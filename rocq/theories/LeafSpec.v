(** Specification vocabulary for leaf pages. *)
From Verif Require Import Base Codec CodecSpec LeafCodec.
Local Open Scope N_scope.

(** The rows, written as a posting list, fit the data area of a page. *)
Definition fits_page (alt : bool) (a : attr) (rows : list (item datum)) : Prop :=
  exists bs, writePostingList alt a 0 rows ip_min = Some bs /\ nlen bs <= RumDataPageSize.

(** A row that can be indexed: legal address and attached value; heap offsets start at 1. *)
Definition row_ok (alt : bool) (a : attr) (it : item datum) : Prop :=
  item_ok alt a it /\ 1 <= off (ip it).

(** Alignment of the attached column, and the configurations the index accepts
    (order_by_attach refuses pass-by-reference columns, rumutil.c initRumState). *)
Definition attr_align (a : attr) : N :=
  match a with AByVal _ => 1 | AFixed _ al => al | AVar al _ => al end.
Definition config_ok (alt : bool) (a : attr) : Prop :=
  legal_align (attr_align a) /\ (alt = true -> exists n, a = AByVal n).

(** Columns for which one inserted row cannot overrun the page: alignment at most 4, or
    fixed width that is a multiple of 8. *)
Definition safe_align (a : attr) : Prop :=
  match a with
  | AByVal _ => True
  | AFixed n al => al <= 4 \/ N.of_nat n mod 8 = 0
  | AVar al _ => al <= 4
  end.

(** Bytes one row can take at any place of a page. *)
Definition takes_at_most (alt : bool) (a : attr) (S : N) (it : item datum) : Prop :=
  forall prev pos w, ip_ok prev -> rumPlaceToDataPageLeaf alt a pos it prev = Some w -> nlen w <= S.
