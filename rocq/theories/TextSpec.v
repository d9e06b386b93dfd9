(** Tables with tsvector columns and the queries the theorems on full-text search cover (C49). *)
From Verif Require Import Base Codec PosCodec Entries EntriesSpec Bulk BulkSpec Tsq TsqSpec TextSearch.
From Coq Require Import NArith ZArith Bool List.
Import ListNotations.
Local Open Scope Z_scope.

(** Column [att] of the table is a tsvector column: the index keys of row [r] in it are what extraction makes of the
    document [doc r] ([None]: NULL); [build]: the key made of a word. *)
Definition text_column {K} (compareFn : N -> K -> K -> Z) (build : list N -> K) (dflt : K)
  (table : list (@hrow K datum)) (att : N) (doc : @hrow K datum -> option document) : Prop :=
  (1 <= att)%N /\ (forall r d, In r table -> doc r = Some d -> valid_doc d) /\
  exists qsortE haveDups, sorts (compareFn att) qsortE haveDups /\
    forall r, In r table -> nth_error (r_cols r) (N.to_nat att - 1) =
      Some (rumExtractEntries (compareFn att) qsortE haveDups dflt (option_map (tsvectorEntries build) (doc r))).
(** Keys are words in byte order ([read]: the word of a key); the classes with function gin_cmp_tslexeme. *)
Definition word_keys {K} (compareFn : N -> K -> K -> Z) (att : N) (build : list N -> K) (read : K -> list N) : Prop :=
  (forall w, read (build w) = w) /\ forall x y, Z.sgn (compareFn att x y) = Z.sgn (word_compare (read x) (read y)).
(** For the classes with hashed words: no word of a document is taken for another word of the query. *)
Definition no_collision {K} (compareFn : N -> K -> K -> Z) (att : N) (build : list N -> K)
  (table : list (@hrow K datum)) (doc : @hrow K datum -> option document) (q : tsq) : Prop :=
  forall r d w ps o, In r table -> doc r = Some d -> In (w, ps) d -> in_query o q ->
    compareFn att (build w) (build (o_word o)) = 0 -> w = o_word o.

(** The meaning of a query, the empty one ([None]) included: it matches nothing. *)
Definition tsmatches (d : document) (query : option tsq) : Prop := match query with Some q => matches d q | None => False end.
(** Restrictions on one query over one column, as in C31. *)
Definition query_fits {K} (table : list (@hrow K datum)) (doc : @hrow K datum -> option document) (q : tsq) : Prop :=
  distances_ok q /\ modes_agree q /\
  forall r d, In r table -> doc r = Some d -> positions_fit d q /\ forall o, in_query o q -> stripped_alike d o /\ weights_clear d o.
(** The query has a prefix operand. *)
Definition has_prefix (q : tsq) : Prop := exists o, in_query o q /\ o_prefix o = true.
(** A query either requires one of its words or is matched by the document without words (not so: !!a). *)
Definition clear_need (q : tsq) : Prop := requires_match q = true \/ matches [] q.
(** What C23 leaves to a query of several conditions: a class without pre-filter or a prefix operand among them; a query of
    one condition needs [clear_need] instead. *)
Definition scan_fits (canPre : N -> bool) (conds : list (N * option tsq)) : Prop :=
  (exists s, In s conds /\ canPre (fst s) = false) \/
  (exists s q, In s conds /\ snd s = Some q /\ has_prefix q) \/
  (exists s, conds = [s] /\ forall q, snd s = Some q -> clear_need q).
(** The keys of a column suit a query: keys are words, or (hashed words) no prefix operand and no collision. *)
Definition keys_fit {K} (compareFn : N -> K -> K -> Z) (att : N) (build : list N -> K) (read : K -> list N)
  (table : list (@hrow K datum)) (doc : @hrow K datum -> option document) (q : tsq) : Prop :=
  word_keys compareFn att build read \/ (~ has_prefix q) /\ no_collision compareFn att build table doc q.
