(** What ORDER BY column <=> tsquery has to return (C50). *)
From Coq Require Import QArith NArith ZArith Bool List Sorted.
From Verif Require Import Base Codec PosCodec PosSpec Entries Bulk ScanEntry Scan IndexScan Tsq TsqSpec TextSearch TextSpec TsRank TsRankSpec.
Import ListNotations.
Local Open Scope Z_scope.

(** Not farther; [None]: infinitely far. *)
Definition not_farther (x y : option Q) : Prop := match x, y with _, None => True | Some a, Some b => (a <= b)%Q | None, Some _ => False end.
(** By the first ordering; where it does not decide, by the next. *)
Fixpoint nearer_first (a b : list (option Q)) : Prop :=
  match a, b with
  | x :: a', y :: b' => not_farther x y /\ (not_farther y x -> nearer_first a' b')
  | _, _ => True
  end.
(** [check], [add]: what the keys of the query show of the document [d]: which occur, with which positions (C31). *)
Definition describes (d : document) (ents : list (list N * bool)) (check : list bool) (add : list (option (list byte))) : Prop :=
  forall j w pm, nth_error ents j = Some (w, pm) ->
    TsqSpec.found (asks_for (mkOp w 0 pm)) (rum_extract_tsvector_internal (fun w => w) d) (nth j check false) (nth j add None).
(** The occurrences of the query's words in the document, as the index numbers and addresses them (queries without repeated
    words): item [i] of the query, which is key number [nth i m], at address [itemAddr i]. *)
Definition positions_of (d : document) (w : list N) : list N :=
  match find (fun e => if list_eq_dec N.eq_dec (fst e) w then true else false) d with Some (_, Some l) => l | _ => [] end.
Fixpoint index_occurrences (itemAddr : nat -> Z) (m : list nat) (d : document) (i : nat) (its : list (option operand)) : list docr :=
  match its with
  | [] => []
  | None :: its' => index_occurrences itemAddr m d (S i) its'
  | Some o :: its' => map (fun p => mkDocr [nth i m O] (itemAddr i) (PosSpec.weight p) (Z.of_N (PosSpec.position p))) (positions_of d (o_word o)) ++ index_occurrences itemAddr m d (S i) its'
  end.
(** The cover numbers of the index, and of the operator, do not collide. *)
Definition index_apart (qsortD : list docr -> list docr) (itemAddr : nat -> Z) (qsort : list operand -> list operand) (d : document) (q : tsq) : Prop :=
  forall ents m, rum_extract_tsquery_internal (fun w => w) qsort q = Some (ents, m) -> tells_apart (qsortD (index_occurrences itemAddr m d 0 (items q))).
Definition operator_apart (qsortD : list docr -> list docr) (alloc : nat -> Z) (d : document) (q : tsq) : Prop :=
  tells_apart (qsortD (docrep alloc (items q) d (fun _ => false) 0 0 (items q))).
(** Queries and documents for which index and operator agree (C43). *)
Definition agreeing (qsortD : list docr -> list docr) (itemAddr alloc : nat -> Z) (qsort : list operand -> list operand) (d : document) (q : tsq) : Prop :=
  words_ascend d /\ no_phrase q /\ no_prefix q /\ words_once q /\ positioned d q /\ places_distinct d q /\
  index_apart qsortD itemAddr qsort d q /\ operator_apart qsortD alloc d q.
(** The scans covered: a class without pre-filter, or a prefix operand, somewhere in the query; or one condition, which needs one of its words, and
    orderings of the same kind on the same column. *)
Definition ordered_fits (canPre : N -> bool) (conds : list (N * option tsq)) (orders : list (N * tsq)) : Prop :=
  (exists s, In s conds /\ canPre (fst s) = false) \/ (exists o, In o orders /\ canPre (fst o) = false) \/
  (exists s q, In s conds /\ snd s = Some q /\ has_prefix q) \/ (exists o, In o orders /\ has_prefix (snd o)) \/
  (exists att q, conds = [(att, Some q)] /\ requires_match q = true /\ forall o, In o orders -> fst o = att /\ requires_match (snd o) = true).
