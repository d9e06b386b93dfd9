(** The operator classes for tsvector columns as the index code calls them: extraction of a document's keys, the
    clause "column @@ tsquery", the join of attached values (C49).
    PostgreSQL functions named in rum_init.sql (tsquery_requires_match, gin_cmp_prefix) are modelled from
    PostgreSQL's sources (utils/adt/tsvector_op.c, utils/adt/tsginidx.c); they are not in /repo. *)
From Verif Require Import Base Codec PosCodec Entries Bulk ScanEntry Scan IndexScan Tsq.
From Coq Require Import NArith ZArith Bool List.
Import ListNotations.
Local Open Scope Z_scope.

(** tsquery_requires_match (PostgreSQL tsvector_op.c), called at rum_ts_utils.c:1300: can only documents with a word of
    the query match it?  A phrase counts as AND. *)
Fixpoint requires_match (q : tsq) : bool :=
  match q with
  | QVal _ => true
  | QNot _ => false
  | QAnd l r | QPhrase _ l r => requires_match l || requires_match r
  | QOr l r => requires_match l && requires_match r
  end.

(** gin_cmp_prefix (PostgreSQL tsginidx.c; comparePartialFn of rum_init.sql:139) on the query word [a] and the index
    word [b]: tsCompareString with prefix matching, negative results turned into 1.  Simplification: of a positive
    result only the sign is kept. *)
Fixpoint is_prefix (a b : list N) : bool :=
  match a, b with
  | [], _ => true
  | _, [] => false
  | x :: a', y :: b' => (x =? y)%N && is_prefix a' b'
  end.
Definition gin_cmp_prefix (a b : list N) : Z := if is_prefix a b then 0 else 1.

(** The keys of a document as rumExtractEntries gets them (rum_extract_tsvector, rum_extract_tsvector_hash,
    rum_ts_utils.c:1227-1262): attached values are bytea values with an ordinary header. *)
Definition tsvectorEntries {K} (build : list N -> K) (doc : list (list N * option (list N))) : list (@keyEntry K datum) :=
  map (fun e => Entries.mkEntry (fst e) false (option_map (DVar V4U) (snd e))) (rum_extract_tsvector_internal build doc).

(** rum_ts_join_pos on attached values (joinAddInfoFn, rum_init.sql:143, called at rumget.c:1268-1272).  Where the C code
    would read past the value the model returns the first one; the theorems show that this does not happen. *)
Definition joinDatum (a b : datum) : datum :=
  match a, b with
  | DVar f x, DVar _ y => match rum_ts_join_pos x y with Some z => DVar V4U z | None => DVar f x end
  | _, _ => a
  end.

(** What consistentFn is passed for one query key (callConsistentFn, rumget.c:141-187): check[] and addInfo[]. *)
Definition checkOf (o : option (option datum)) : bool := match o with Some _ => true | None => false end.
Definition bytesOf (o : option (option datum)) : option (list byte) :=
  match o with Some (Some (DVar _ p)) => Some p | Some (Some (DFix p)) => Some p | Some (Some (DVal _)) => Some [] | _ => None end.

(** The clause "column [att] @@ query" (rum_extract_tsquery, rum_extract_tsquery_hash, rum_ts_utils.c:1383-1432): query
    keys with partial-match flags, the search mode (rum_ts_utils.c:1294-1303), and the class's [consistent] and
    rum_tsquery_pre_consistent with the item map.  [None]: the empty query, which has no keys and leaves the search mode
    at its default.  [prefixFn]: comparePartialFn. *)
Definition textClause {K} (build : list N -> K) (prefixFn : K -> K -> Z) (qsort : list operand -> list operand)
    (consistent : list nat -> list bool -> list (option (list byte)) -> option tsq -> bool * bool)
    (att : N) (query : option tsq) : clause K :=
  match query with
  | None => mkClause att false [] 0 (fun v => consistent [] (map checkOf v) (map bytesOf v) None) (Some (fun T => rum_tsquery_pre_consistent [] T None))
  | Some q =>
      match rum_extract_tsquery_internal build qsort q with
      | Some (ents, m) =>
          mkClause att false (map (fun e => mkQval (fst e) false (if snd e : bool then Some (prefixFn (fst e)) else None) (fun _ => 0)) ents)
            (if requires_match q then 0 else 2)
            (fun v => consistent m (map checkOf v) (map bytesOf v) query)
            (Some (fun T => rum_tsquery_pre_consistent m T query))
      | None => mkClause att false [] 0 (fun _ => (false, false)) None
      end
  end.
