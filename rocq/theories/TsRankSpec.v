(** Vocabulary of C43: windows of the occurrence list, covers, queries on sets of words. *)
From Verif Require Import Base Ord Codec PosCodec PosSpec Tsq TsqSpec TsRank.
From Coq Require Import QArith NArith ZArith Bool List Permutation Sorted.
Import ListNotations.
Local Open Scope Z_scope.

(** The query, weights ignored, on a set of words.  (Phrases: excluded by [no_phrase].) *)
Fixpoint said (W : list N -> Prop) (q : tsq) : Prop :=
  match q with
  | QVal o => exists w, W w /\ asks_for o w
  | QNot a => ~ said W a
  | QAnd l r => said W l /\ said W r
  | QOr l r => said W l \/ said W r
  | QPhrase _ _ _ => False
  end.
Fixpoint no_phrase (q : tsq) : Prop :=
  match q with
  | QVal _ => True
  | QNot a => no_phrase a
  | QAnd l r | QOr l r => no_phrase l /\ no_phrase r
  | QPhrase _ _ _ => False
  end.
Fixpoint no_not (q : tsq) : Prop :=
  match q with
  | QVal _ => True
  | QNot _ => False
  | QAnd l r | QOr l r | QPhrase _ l r => no_not l /\ no_not r
  end.
(** Every NOT is applied to words that do not occur. *)
Fixpoint negated_absent (W : list N -> Prop) (q : tsq) : Prop :=
  match q with
  | QVal _ => True
  | QNot a => no_not a /\ forall o, in_query o a -> ~ exists w, W w /\ asks_for o w
  | QAnd l r | QOr l r | QPhrase _ l r => negated_absent W l /\ negated_absent W r
  end.

(** The query's items on a set of marked items: [P i]: the word of item [i] occurs. *)
Fixpoint items_said (P : nat -> Prop) (i : nat) (q : tsq) : Prop :=
  match q with
  | QVal _ => P i
  | QNot a => ~ items_said P (S i) a
  | QAnd l r => items_said P (S i + qsize r) l /\ items_said P (S i) r
  | QOr l r => items_said P (S i + qsize r) l \/ items_said P (S i) r
  | QPhrase _ _ _ => False
  end%nat.
(** An occurrence between [b] and [e] (both included) of the list stands for [j]. *)
Definition in_window (doc : list docr) (b e j : nat) : Prop := exists k x, (b <= k <= e)%nat /\ nth_error doc k = Some x /\ In j (d_ops x).
(** The query holds of the occurrences between [b] and [e]. *)
Definition window_holds (slot : nat -> nat) (q : tsq) (doc : list docr) (b e : nat) : Prop := items_said (fun i => in_window doc b e (slot i)) 0 q.
(** A window of which the query holds, but of no shorter window inside. *)
Definition minimal_window (slot : nat -> nat) (q : tsq) (doc : list docr) (b e : nat) : Prop :=
  (b <= e < length doc)%nat /\ window_holds slot q doc b e /\
  forall b' e', (b <= b')%nat -> (e' <= e)%nat -> (b' <= e')%nat -> (b' <> b \/ e' <> e) -> ~ window_holds slot q doc b' e'.
Definition span (c : cover) : nat * nat := (c_begin c, c_end c).

(** The C library sort: a permutation, ascending by position. *)
Definition sorts_docr (qsortD : list docr -> list docr) : Prop :=
  forall l, Permutation l (qsortD l) /\ StronglySorted (fun x y => d_pos x <= d_pos y) (qsortD l).
(** Conversion to float4 and logarithm, as far as the theorems need them: positive numbers (above 1) have positive
    images. *)
Definition keeps_sign (f : Q -> Q) : Prop := (forall x, (0 < x)%Q -> (0 < f x)%Q) /\ (forall x, (x == 0)%Q -> (f x == 0)%Q) /\ (forall x y, (x == y)%Q -> (f x == f y)%Q).
Definition positive_above_1 (f : Q -> Q) : Prop := forall x, (1 < x)%Q -> (0 < f x)%Q.

(** A document as PostgreSQL stores it: words ascending. *)
Definition words_ascend (d : document) : Prop := StronglySorted (fun a b => word_compare (fst a) (fst b) < 0) d.
Definition word_of (d : document) (w : list N) : Prop := exists ps, In (w, ps) d.
(** The words the query asks for have positions. *)
Definition positioned (d : document) (q : tsq) : Prop := forall o, in_query o q -> ~ stripped d o.

(** Relevance in closed form.  The occurrences of a window; how many of the [len] operands occur in it. *)
Definition window (doc : list docr) (b e : nat) : list docr := firstn (S (e - b)) (skipn b doc).
Definition operands_in (len : nat) (l : list docr) : nat := length (filter (fun j => existsb (fun x => existsb (Nat.eqb j) (d_ops x)) l) (seq 0 len)).
Definition position_at (doc : list docr) (k : nat) : Z := d_pos (nth k doc (mkDocr [] 0 0 0)).
(** Words between the first and the last occurrence that are not occurrences; if there are more occurrences than places
    (several words at one place), half the number of steps. *)
Definition noise (doc : list docr) (b e : nat) : Z :=
  let gap := (position_at doc e - position_at doc b) - Z.of_nat (e - b) in if gap <? 0 then Z.of_nat (e - b) / 2 else gap.
(** The sum over the classes D, C, B, A of the number of occurrences of the class, divided by its weight 0.1, 0.2, 0.4, 1.0. *)
Definition inverse_weights (l : list docr) : Q := fold_right (fun x s => (match d_class x with 0%N => 10 | 1%N => 5 | 2%N => 5 # 2 | _ => 1 end + s)%Q) 0%Q l.
Definition window_rank (len : nat) (doc : list docr) (w : nat * nat) : Q :=
  let l := window doc (fst w) (snd w) in
  (inject_Z (Z.of_nat (length l)) / inverse_weights l * inject_Z (Z.of_nat (Nat.max 1 (operands_in len l))) / inject_Z (1 + noise doc (fst w) (snd w)))%Q.
(** The n-th window of a kind counts 1 / (n * n); pi * pi / 6 normalises.  [seen]: kinds of the windows before. *)
Fixpoint windows_sum {A} (kind : A -> Z) (rank : A -> Q) (seen : list Z) (ws : list A) : Q :=
  match ws with
  | [] => 0%Q
  | w :: ws' =>
      let n := inject_Z (1 + Z.of_nat (count_occ Z.eq_dec seen (kind w))) in
      (rank w / (n * n) / (164493406685 # 100000000000) + windows_sum kind rank (kind w :: seen) ws')%Q
  end.

(** Queries without prefix operands and without repeated words. *)
Definition no_prefix (q : tsq) : Prop := forall o, in_query o q -> o_prefix o = false.
Definition words_once (q : tsq) : Prop := NoDup (map o_word (operands q)).
(** No two words of the query at one place of the document. *)
Definition places_distinct (d : document) (q : tsq) : Prop :=
  forall o o' w w' l l' p p', in_query o q -> in_query o' q -> asks_for o w -> asks_for o' w' ->
    In (w, Some l) d -> In (w', Some l') d -> In p l -> In p' l' -> PosSpec.position p = PosSpec.position p' -> w = w'.
(** The 32-bit number made of addresses, by which covers are counted together, tells different sequences of words apart. *)
Definition tells_apart (doc : list docr) : Prop :=
  forall b e b' e', coverKey (window doc b e) = coverKey (window doc b' e') -> map d_ops (window doc b e) = map d_ops (window doc b' e').
(** The address that goes into the number is the same for occurrences of the same operands. *)
Definition addr_by_ops (l : list docr) : Prop := forall x y, In x l -> In y l -> d_ops x = d_ops y -> d_addr x = d_addr y.
(** [kind] tells sequences of words apart, and nothing else. *)
Definition by_words (doc : list docr) (kind : nat * nat -> Z) : Prop :=
  forall w w', kind w = kind w' <-> map d_ops (window doc (fst w) (snd w)) = map d_ops (window doc (fst w') (snd w')).
(** Equal distances: both infinite, or equal numbers. *)
Definition same_distance (x y : option Q) : Prop := match x, y with None, None => True | Some a, Some b => (a == b)%Q | _, _ => False end.
