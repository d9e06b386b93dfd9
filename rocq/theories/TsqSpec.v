(** What `tsvector @@ tsquery` means (PostgreSQL documentation and tsvector_op.c), stated on the
    document and the query alone.  C31-C34, C42. *)
From Coq Require Import Permutation.
From Verif Require Import Base Ord Codec PosCodec PosSpec Tsq.
Local Open Scope Z_scope.

(** A document: its lexemes, each with its list of (position, weight) entries, or [None] when the
    lexeme was stripped of positions. *)
Definition document := list (list N * option (list N)).

(** As PostgreSQL keeps it: entries ascending by position, none empty, positions from 1 on. *)
Definition valid_doc (d : document) : Prop :=
  NoDup (map fst d) /\
  forall w l, In (w, Some l) d -> pos_list l /\ l <> [] /\ Forall (fun p => (1 <= position p)%N) l.

(** The lexemes an operand asks for. *)
Definition asks_for (o : operand) (w : list N) : Prop :=
  if o_prefix o then exists rest, w = o_word o ++ rest else w = o_word o.

(** An operand's weight restriction (0: none), on one stored entry. *)
Definition right_weight (o : operand) (p : N) : Prop :=
  o_weight o = 0%N \/ N.testbit (o_weight o) (weight p) = true.

(** Operand outside phrases: some lexeme asked for is there and has an entry of the right weight;
    a stripped lexeme matches whatever the weight restriction. *)
Definition value_matches (d : document) (o : operand) : Prop :=
  exists w ps, In (w, ps) d /\ asks_for o w /\
    match ps with None => True | Some l => exists p, In p l /\ right_weight o p end.

(** Operand inside a phrase: is one of its lexemes stripped; at which positions it occurs. *)
Definition stripped (d : document) (o : operand) : Prop := exists w, In (w, None) d /\ asks_for o w.
Definition occurs_at (d : document) (o : operand) (p : Z) : Prop :=
  exists w l e, In (w, Some l) d /\ asks_for o w /\ In e l /\ right_weight o e /\ p = Z.of_N (position e).

(** Where a query at or below a phrase operator matches: unknown (for lack of positions), or the
    set of positions at which a match ends together with the width of a match. *)
Inductive where_matches := Unknown | At (P : Z -> Prop) (width : Z).
Definition nowhere (r : where_matches) : Prop :=
  match r with Unknown => False | At P _ => forall p, ~ P p end.
(** Width counted for alignment under OR: none for a side that matches nowhere. *)
Definition or_width (r : where_matches) (w : Z) : Prop :=
  match r with Unknown => False | At P w' => (nowhere r /\ w = 0) \/ (~ nowhere r /\ w = w') end.

Inductive ends_at (d : document) : tsq -> where_matches -> Prop :=
| E_value_unknown o : stripped d o -> ends_at d (QVal o) Unknown
| E_value o P : ~ stripped d o -> (forall p, P p <-> occurs_at d o p) -> ends_at d (QVal o) (At P 0)
| E_not_unknown a : ends_at d a Unknown -> ends_at d (QNot a) Unknown
| E_not a P w T : ends_at d a (At P w) -> (forall p, T p <-> ~ P p) -> ends_at d (QNot a) (At T w)
| E_phrase_none n l r L R T : ends_at d l L -> ends_at d r R -> nowhere L \/ nowhere R ->
    (forall p, ~ T p) -> ends_at d (QPhrase n l r) (At T 0)
| E_phrase_unknown n l r L R : ends_at d l L -> ends_at d r R -> ~ nowhere L -> ~ nowhere R ->
    L = Unknown \/ R = Unknown -> ends_at d (QPhrase n l r) Unknown
| E_phrase n l r SL wL SR wR T : ends_at d l (At SL wL) -> ends_at d r (At SR wR) ->
    ~ nowhere (At SL wL) -> ~ nowhere (At SR wR) ->
    (* a match of r ends at p and starts at p - wR; a match of l ends n before that start *)
    (forall p, T p <-> SR p /\ SL (p - wR - n)) -> ends_at d (QPhrase n l r) (At T (wL + n + wR))
| E_and_none l r L R T : ends_at d l L -> ends_at d r R -> nowhere L \/ nowhere R ->
    (forall p, ~ T p) -> ends_at d (QAnd l r) (At T 0)
| E_and_unknown l r L R : ends_at d l L -> ends_at d r R -> ~ nowhere L -> ~ nowhere R ->
    L = Unknown \/ R = Unknown -> ends_at d (QAnd l r) Unknown
| E_and l r SL wL SR wR T : ends_at d l (At SL wL) -> ends_at d r (At SR wR) ->
    ~ nowhere (At SL wL) -> ~ nowhere (At SR wR) ->
    (* both start at the same place; the wider one tells the end *)
    (forall p, T p <-> SL (p - Z.max wL wR + wL) /\ SR (p - Z.max wL wR + wR)) ->
    ends_at d (QAnd l r) (At T (Z.max wL wR))
| E_or_none l r L R T : ends_at d l L -> ends_at d r R -> nowhere L -> nowhere R ->
    (forall p, ~ T p) -> ends_at d (QOr l r) (At T 0)
| E_or_unknown l r L R : ends_at d l L -> ends_at d r R -> ~ (nowhere L /\ nowhere R) ->
    L = Unknown \/ R = Unknown -> ends_at d (QOr l r) Unknown
| E_or l r SL wL SR wR T w1 w2 : ends_at d l (At SL wL) -> ends_at d r (At SR wR) ->
    ~ (nowhere (At SL wL) /\ nowhere (At SR wR)) ->
    or_width (At SL wL) w1 -> or_width (At SR wR) w2 ->
    (forall p, T p <-> SL (p - Z.max w1 w2 + w1) \/ SR (p - Z.max w1 w2 + w2)) ->
    ends_at d (QOr l r) (At T (Z.max w1 w2)).

(** The match relation of `@@`.  A phrase whose match is unknown does not match. *)
Fixpoint matches (d : document) (q : tsq) : Prop :=
  match q with
  | QVal o => value_matches d o
  | QNot a => ~ matches d a
  | QAnd l r => matches d l /\ matches d r
  | QOr l r => matches d l \/ matches d r
  | QPhrase _ _ _ => exists P w p, ends_at d q (At P w) /\ P p
  end.

(** Sum of the phrase distances of a query: the largest width of a match. *)
Fixpoint total_distance (q : tsq) : Z :=
  match q with
  | QVal _ => 0
  | QNot a => total_distance a
  | QAnd l r | QOr l r => total_distance l + total_distance r
  | QPhrase n l r => n + total_distance l + total_distance r
  end.
Fixpoint distances_ok (q : tsq) : Prop :=
  match q with
  | QVal o => (o_weight o < 16)%N
  | QNot a => distances_ok a
  | QAnd l r | QOr l r => distances_ok l /\ distances_ok r
  | QPhrase n l r => 0 <= n /\ distances_ok l /\ distances_ok r
  end.
(** PostgreSQL keeps positions in 14 bits: ends of matches must fit. *)
Definition positions_fit (d : document) (q : tsq) : Prop :=
  distances_ok q /\
  forall w l p, In (w, Some l) d -> In p l -> Z.of_N (position p) + total_distance q < 16384.

(** Every operand of a query. *)
Fixpoint in_query (o : operand) (q : tsq) : Prop :=
  match q with
  | QVal o' => o = o'
  | QNot a => in_query o a
  | QAnd l r | QOr l r | QPhrase _ l r => in_query o l \/ in_query o r
  end.

(** What the scan hands to the match function about one row, for an index that stores positions:
    entry [j] is present iff the document has a lexeme its operands ask for; the attached value
    is NULL iff one of these lexemes is stripped, and otherwise reads as an ascending list having
    the right entries for every operand of the entry. *)
Definition reports (d : document) (o : operand) (present : bool) (add : option (list byte)) : Prop :=
  (present = true <-> exists w ps, In (w, ps) d /\ asks_for o w) /\
  (present = true ->
     (add = None <-> stripped d o) /\
     forall bs, add = Some bs -> exists l, read_positions bs = Some l /\ l <> [] /\
       Forall (fun p => (1 <= position p)%N) l /\ StronglySorted (fun p q => (position p < position q)%N) l /\
       forall p, (exists e, In e l /\ right_weight o e /\ p = Z.of_N (position e)) <-> occurs_at d o p).
(** For an index whose attached value is not a position list, only presence is known. *)
Definition reports_presence (d : document) (o : operand) (present : bool) : Prop :=
  present = true <-> exists w ps, In (w, ps) d /\ asks_for o w.

(** The C library sort, as far as it is relied on: a permutation, ascending by word. *)
Definition sorts_words (qsort : list operand -> list operand) : Prop :=
  forall l, Permutation l (qsort l) /\
    StronglySorted (fun a b => word_compare (o_word a) (o_word b) <= 0) (qsort l).

(** What looking up one key of the query yields for a row whose keys and attached values are
    [keyed]: presence, and the attached values of all hits joined in some visiting order. *)
Definition found {K} (hits : K -> Prop) (keyed : list (K * option (list byte)))
    (present : bool) (add : option (list byte)) : Prop :=
  exists sel, (forall e, In e sel <-> In e keyed /\ hits (fst e)) /\
    (present = true <-> sel <> []) /\ join_all None (map snd sel) = Some add.

(** Restrictions under which joining attached values loses nothing (both hold by themselves for an
    operand without prefix mark, see [exact_operand_restrictions]). *)
Definition stripped_alike (d : document) (o : operand) : Prop :=
  stripped d o -> forall w ps, In (w, ps) d -> asks_for o w -> ps = None.
Definition weights_clear (d : document) (o : operand) : Prop :=
  o_weight o = 0%N \/
  forall w l w' l' e e', In (w, Some l) d -> In (w', Some l') d -> asks_for o w -> asks_for o w' ->
    In e l -> In e' l' -> position e = position e' -> e = e'.

(** No two operands with the same word, one with and one without prefix mark. *)
Definition modes_agree (q : tsq) : Prop :=
  forall o o', in_query o q -> in_query o' q -> o_word o = o_word o' -> o_prefix o = o_prefix o'.

(** A weighted operand (other than "any weight") under NOT, outside phrases. *)
Fixpoint weighted_under_not (neg : bool) (q : tsq) : Prop :=
  match q with
  | QVal o => neg = true /\ o_weight o <> 0%N /\ o_weight o <> 15%N
  | QNot a => weighted_under_not true a
  | QAnd l r | QOr l r => weighted_under_not neg l \/ weighted_under_not neg r
  | QPhrase _ _ _ => False
  end.
