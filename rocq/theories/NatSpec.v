(** What a natural-order scan should give.  Specification file. *)
From Verif Require Import Base Ord LeafPage ScanEntry Scan ScanSpec NatScan.
From Coq Require Import NArith ZArith Bool Arith List Sorted.
Import ListNotations.
Local Open Scope Z_scope.

Section Spec.
  Context {A : Type}.
  Variable cmpA : A -> A -> Z.
  Notation item := (item A).

  (** The row's attached value is not below [v]. *)
  Definition upper (v : A) (y : item) : bool := match add y with Some a => cmpA v a <=? 0 | None => false end.

  (** A one-sided distance to [v] ([None]: infinite): finite on the side of the operator, where farther is larger.
      [right]: |=> ; otherwise <=| . *)
  Definition onside (right : bool) (v a : A) : Prop := if right then cmpA v a <= 0 else cmpA a v <= 0.
  Record one_sided (right : bool) (v : A) (d : option A -> option Z) : Prop := {
    os_in : forall a, onside right v a -> d (Some a) <> None;
    os_mono : forall a b da db, onside right v a -> onside right v b -> (if right then cmpA a b <= 0 else cmpA b a <= 0) ->
      d (Some a) = Some da -> d (Some b) = Some db -> da <= db;
    os_out : forall a, ~ onside right v a -> d (Some a) = None;
    os_null : d None = None }.
  Definition dist_le (a b : option Z) : Prop := match a, b with _, None => True | None, Some _ => False | Some x, Some y => x <= y end.
  (** Nearest first. *)
  Definition nearest_first (d : option A -> option Z) (l : list item) : Prop := StronglySorted (fun x y => dist_le (d (add x)) (d (add y))) l.

  (** The leaf a search for the argument arrives at holds a row at or after it, or is the last. *)
  Definition reaches_up (v : A) (chain : list (leaf A)) (p : nat) : Prop :=
    S p = length chain \/ exists pg y, nth_error chain p = Some pg /\ In y (lf_items pg) /\ upper v y = true.
  (** It holds a row before the argument, or is the first. *)
  Definition reaches_down (v : A) (chain : list (leaf A)) (p : nat) : Prop :=
    p = 0%nat \/ exists pg y, nth_error chain p = Some pg /\ In y (lf_items pg) /\ upper v y = false.
  (** Pages a backward scan can read: none empty, none with exactly three rows. *)
  Definition page_sizes (chain : list (leaf A)) : Prop := forall pg, In pg chain -> length (lf_items pg) <> 0%nat /\ length (lf_items pg) <> 3%nat.

  Definition up_ok (v : A) (q : qentry (A := A)) : Prop :=
    match q_found q with
    | FMany _ => False
    | FTree chain _ => reaches_up v chain (q_refind q (markItem v))
    | _ => True
    end.
  (** [n]: the number of query keys. *)
  Definition down_ok (v : A) (n : nat) (q : qentry (A := A)) : Prop :=
    match q_found q with
    | FMany _ => False
    | FTree chain _ => reaches_up v chain (q_refind q (markItem v)) /\ reaches_down v chain (q_refind q (markItem v)) /\ page_sizes chain /\ n = 1%nat
    | _ => True
    end.
  Definition dir_ok (fwd : bool) (v : A) (n : nat) (q : qentry (A := A)) : Prop := if fwd then up_ok v q else down_ok v n q.

  (** qsort by cmpEntries. *)
  Definition sorts_dir (sortEnts : bool -> list (entry A) -> list nat) : Prop :=
    forall d ents, Permutation.Permutation (sortEnts d ents) (seq 0 (length ents)) /\
      StronglySorted (fun a b => 0 <= cmpEntDir cmpA d (ent ents a) (ent ents b)) (sortEnts d ents).
End Spec.
