(** What a tsquery means, and which queries the theorems on inverted search cover (C35, C36). *)
From Verif Require Import Base Ord Codec Entries EntriesSpec Bulk BulkSpec Array Inverted.
From Coq Require Import NArith ZArith Bool List.
Import ListNotations.
Local Open Scope Z_scope.

Section Spec.
  Context {K : Type}.
  (** [D x]: word [x] with these allowed weights occurs in the document. *)
  Fixpoint query_true (D : K -> N -> Prop) (q : tsquery K) : Prop :=
    match q with
    | TVal x w _ => D x w
    | TNot q' => ~ query_true D q'
    | TAnd l r => query_true D l /\ query_true D r
    | TOr l r => query_true D l \/ query_true D r
    | TPhrase _ l r => False
    end.
  (** The document has the word, at a position of an allowed weight if the query names weights. *)
  Definition in_doc (doc : tsvector K) (x : K) (w : N) : Prop :=
    exists ps, In (x, ps) doc /\ (w = 0%N \/ exists p, In p ps /\ N.testbit w p = true).
  Definition matches (doc : tsvector K) (q : tsquery K) : Prop := query_true (in_doc doc) q.

  (** Does the document match when weights are not looked at? *)
  Definition matches_words (doc : tsvector K) (q : tsquery K) : Prop := query_true (fun x _ => In x (map fst doc)) q.
  (** Queries of words, &, | and ! only: others cannot be stored. *)
  Fixpoint plain (q : tsquery K) : Prop :=
    match q with
    | TVal _ _ prefix => prefix = false
    | TNot q' => plain q'
    | TAnd l r | TOr l r => plain l /\ plain r
    | TPhrase _ _ _ => False
    end.
  (** No weights in the query. *)
  Fixpoint unweighted (q : tsquery K) : Prop :=
    match q with
    | TVal _ w _ => w = 0%N
    | TNot q' => unweighted q'
    | TAnd l r | TOr l r | TPhrase _ l r => unweighted l /\ unweighted r
    end.
  Fixpoint words (q : tsquery K) : nat :=
    match q with TVal _ _ _ => 1 | TNot q' => words q' | TAnd l r | TOr l r | TPhrase _ l r => words l + words r end%nat.
  (** The number of operators left when negations are moved to the words (an & under a negation becomes an | and so on;
      [neg]: under an odd number of them) and operators are merged with a parent of the same kind ([parent]: true for &). *)
  Fixpoint operators (q : tsquery K) (neg : bool) (parent : option bool) : nat :=
    let node (oper : bool) (l r : option bool -> nat) :=
      match parent with Some o => if Bool.eqb o oper then l parent + r parent else S (l (Some oper) + r (Some oper)) | None => S (l (Some oper) + r (Some oper)) end%nat in
    match q with
    | TVal _ _ _ => 0%nat
    | TNot q' => operators q' (negb neg) parent
    | TAnd l r => node (negb neg) (operators l neg) (operators r neg)
    | TOr l r => node neg (operators l neg) (operators r neg)
    | TPhrase _ _ _ => 0%nat
    end.
  (** Sizes: the node array of the search has 256 elements; a tsquery is smaller than 1 GB. *)
  Definition moderate (q : tsquery K) : Prop := (operators q false None <= 256)%nat /\ Z.of_nat (words q) < 2 ^ 28.

  (** With negations moved to the words and operators merged as above, no operand that is still an operation is
      true of a document without any word.  So [a & !b], [a | !b] and all queries without negation are included,
      [a & !(b & c)] is not. *)
  Fixpoint needs_words (q : tsquery K) (neg : bool) (parent : option bool) : Prop :=
    match q with
    | TVal _ _ _ => True
    | TNot q' => needs_words q' (negb neg) parent
    | TAnd l r => (parent = None \/ parent = Some (negb neg) \/ ~ query_true (fun _ _ => False) (if neg then TNot q else q)) /\
        needs_words l neg (Some (negb neg)) /\ needs_words r neg (Some (negb neg))
    | TOr l r => (parent = None \/ parent = Some neg \/ ~ query_true (fun _ _ => False) (if neg then TNot q else q)) /\
        needs_words l neg (Some neg) /\ needs_words r neg (Some neg)
    | TPhrase _ _ _ => True
    end.
  Definition no_negation : tsquery K -> Prop := fix go q :=
    match q with TVal _ _ _ => True | TNot _ => False | TAnd l r | TOr l r | TPhrase _ l r => go l /\ go r end.
End Spec.

(** ** Paths *)
(** A step of a stored path: the number of an operator, its start value, and whether the operand below is negated. *)
Definition step : Type := N * Z * bool.
(** Reading a path the way the search does (rumtsquery.c:506-515): two numbers per step. *)
Fixpoint read_path (fuel : nat) (p : list N) : option (list step) :=
  match p, fuel with
  | [], _ => Some []
  | _, O => None
  | _, S f =>
      match decode_varbyte p with
      | None => None
      | Some (num, p1) =>
          match decode_varbyte p1 with
          | None => None
          | Some (sv, p2) =>
              let s := Z.of_N (sv / 4) in
              option_map (cons (num, if N.testbit sv 1 then - s else s, N.testbit sv 0)) (read_path f p2)
          end
      end
  end.
(** The words of a numbered query tree, each with its negation and the operators above it, the nearest first. *)
Fixpoint word_paths {K} (c : cwrap K) (above : list (N * Z)) : list (K * (bool * list (N * Z))) :=
  match c with CVal x b => [(x, (b, above))] | COp num sum _ ops => flat_map (fun o => word_paths o ((num, sum) :: above)) ops end.
(** The steps that stand for a word at such a place; a negated word that is the whole query gets a step of its own. *)
Definition steps_of (w : bool * list (N * Z)) : list step :=
  match snd w with
  | [] => if fst w then [(1%N, 1, true)] else []
  | (num, sum) :: rest => (num, sum, fst w) :: map (fun u => (fst u, snd u, false)) rest
  end.

(** Column [att] of the table is a tsquery column of the class: the index keys of row [r] in it are what extraction
    makes of the query [tsq r] ([None]: NULL); words are equal for the code when they are the same word, which is also
    when the column's comparison says so. *)
Definition query_column {K} (compareFn : N -> K -> K -> Z) (eqb : K -> K -> bool) (dflt : K)
  (table : list (@hrow K datum)) (att : N) (tsq : @hrow K datum -> option (tsquery K)) : Prop :=
  (1 <= att)%N /\ (forall x y, eqb x y = true <-> x = y) /\ (forall x y, compareFn att x y = 0 <-> x = y) /\
  exists qsortE haveDups, sorts (compareFn att) qsortE haveDups /\
    forall r, In r table -> exists es,
      match tsq r with None => es = None | Some q => exists l, extract_tsquery eqb dflt q = Some l /\ es = Some l end /\
      nth_error (r_cols r) (N.to_nat att - 1) = Some (rumExtractEntries (compareFn att) qsortE haveDups dflt es).
(** A tsvector as the type keeps it: no word twice. *)
Definition is_tsvector {K} (doc : tsvector K) : Prop := NoDup (map fst doc).
