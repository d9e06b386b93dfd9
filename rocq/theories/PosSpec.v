(** Specification vocabulary for word positions (C03, C04). *)
From Verif Require Import Base Ord PosCodec.
Local Open Scope N_scope.

(** Position (1..16383 in PostgreSQL, here 0 is allowed too) and weight (0..3) of a stored entry. *)
Definition position (p : N) : N := p mod 16384.
Definition weight (p : N) : N := p / 16384.

(** A position list as PostgreSQL keeps it in a tsvector: 16-bit entries in strictly ascending
    order of position. *)
Definition pos_list (l : list N) : Prop :=
  Forall (fun p => p < 65536) l /\ StronglySorted (fun p q => position p < position q) l.
