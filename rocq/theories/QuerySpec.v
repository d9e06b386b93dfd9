(** What a query on the index has to return, said of the rows of the table (C46). *)
From Verif Require Import Base Ord Codec CodecSpec LeafSpec Entries Bulk BulkSpec EntryTree BTree PostingTreeSpec IndexSpec ScanEntry Scan IndexScan VacScanSpec LifeSpec.
From Coq Require Import NArith ZArith Bool List Permutation Sorted.
Import ListNotations.
Local Open Scope Z_scope.

Section Spec.
  Context {K : Type}.
  Variable compareFn : N -> K -> K -> Z.
  Variable dflt : K.
  Variables (addTo attach : N).
  Notation hrow := (@hrow K datum).

  (** Does the query key [q] ask for the index key [k]?  A partial match: for the regular keys of its
      column the operator class accepts, none if the query key is NULL; a whole-column key: for all keys
      of its column, the one for NULL values excepted when it stands for "all values"; otherwise for
      the equal key. *)
  Definition asks (q : qreq K) (k : ekey K) : bool :=
    match rq_partial q with
    | Some f => (k_att k =? rq_att q)%N && (cat_code (rq_cat q) =? 0) && (cat_code (k_cat k) =? 0) && (f (k_val k) =? 0)
    | None =>
        match rq_cat q with
        | CatEmptyQuery => (k_att k =? rq_att q)%N && negb (rq_all q && (cat_code (k_cat k) =? 3))
        | _ => rumCompareAttEntries compareFn k (mkKey (rq_att q) (rq_key q) (rq_cat q)) =? 0
        end
    end.
  (** The additional informations of the keys of row [r] the query key asks for. *)
  Definition infos (r : hrow) (q : qreq K) : list (option datum) :=
    map (fun e => add (snd e)) (filter (fun e => asks q (fst e)) (row_pairs addTo r)).
  (** What the match function may be told about a row whose asked-for keys have the informations [l]:
      not there, or there with the informations joined, in some order. *)
  Definition shows (join : option (datum -> datum -> datum)) (l : list (option datum)) (o : option (option datum)) : Prop :=
    (l = [] /\ o = None) \/ exists a t, Permutation l (a :: t) /\ o = Some (fold_left (joinAdd join) t a).

  (** The regular keys of column [att] in the table. *)
  Definition table_key (table : list hrow) (att : N) (k : K) : Prop :=
    exists r e, In r table /\ In e (row_pairs addTo r) /\ k_att (fst e) = att /\ k_cat (fst e) = CatNormKey /\ compareFn att (k_val (fst e)) k = 0.
  (** comparePartialFn follows the contract on the keys of the table: keys are accepted only from the
      query key on, nothing is accepted after it said to stop, and equal keys get the same answer. *)
  Definition partial_ok (P : K -> Prop) (q : qreq K) : Prop :=
    forall f, rq_partial q = Some f ->
    (forall k, P k -> f k = 0 -> compareFn (rq_att q) (rq_key q) k <= 0) /\
    (forall k k', P k -> P k' -> compareFn (rq_att q) (rq_key q) k <= 0 -> compareFn (rq_att q) k k' <= 0 -> 0 < f k -> f k' <> 0) /\
    (forall k k', P k -> P k' -> compareFn (rq_att q) k k' = 0 -> f k = f k').

  (** A clause holds of a row, [V q] being what its query keys say about the row: its argument is not
      NULL, the row has a key the clause asks for, and the match function accepts. *)
  Definition holds (V : qreq K -> option (option datum)) (c : clause K) : Prop :=
    cl_isnull c = false /\ (exists q, In q (requests dflt c) /\ V q <> None) /\
    fst (cl_cons c (map (fun v => V (reqOf (cl_att c) v)) (cl_vals c))) = true.
  (** A clause on the attached column, checked on the value itself: comparePartialFn of each of its query
      keys accepts the value. *)
  Definition attached_holds (r : hrow) (c : clause K) : Prop :=
    cl_isnull c = false /\ cl_vals c <> [] /\ exists a, r_attach r = Some a /\ forall v, In v (cl_vals c) -> qv_sub v a = 0.
  (** The row satisfies the condition [c] of the query [conds]: clauses on the attached column are
      checked on its value when the query also has clauses on the column it is attached to. *)
  Definition satisfies (V : qreq K -> option (option datum)) (conds : list (clause K)) (r : hrow) (c : clause K) : Prop :=
    if (cl_att c =? attach)%N && existsb (fun c' => (cl_att c' =? addTo)%N) conds then attached_holds r c else holds V c.
  (** The clause asks the executor to check the row again. *)
  Definition wants_recheck (V : qreq K -> option (option datum)) (conds : list (clause K)) (c : clause K) : Prop :=
    ((cl_att c =? attach)%N && existsb (fun c' => (cl_att c' =? addTo)%N) conds = false) /\
    snd (cl_cons c (map (fun v => V (reqOf (cl_att c) v)) (cl_vals c))) = true.
  (** The table: extraction leaves at least one key (maybe a placeholder) in every column. *)
  Definition has_column1 (r : hrow) : Prop := exists e, In e (row_pairs addTo r) /\ k_att (fst e) = 1%N.
End Spec.

(** ** Queries the theorem covers *)
Section Covered.
  Context {K : Type}.
  Variable compareFn : N -> K -> K -> Z.
  Variable dflt : K.
  Variables (addTo attach : N) (useAlt : bool).
  Variables (curKeyOrdering canPre : N -> bool).
  Notation clause := (clause K).
  Notation hrow := (@hrow K datum).

  (** The clauses checked by index keys: not those on the attached column when the query also has
      clauses on the column it is attached to. *)
  Definition kept (conds : list clause) : list clause :=
    filter (fun c => negb ((cl_att c =? attach)%N && existsb (fun c' => (cl_att c' =? addTo)%N) conds)) conds.
  (** ORDER BY clauses that are not dropped. *)
  Definition live (orders : list clause) : list clause := filter (fun o => negb (noKey o)) orders.
  (** All query keys of a query (without conditions: one for column 1). *)
  Definition query_keys (conds orders : list clause) : list (qreq K) :=
    match conds with [] => [everything dflt] | _ => flat_map (requests dflt) (kept conds) end ++
    flat_map (fun o => if bare attach curKeyOrdering o then [] else requests dflt o) (live orders).

  (** The fast scan is used when all columns concerned have a pre-filter and there is no partial match. *)
  Definition goes_fast (conds orders : list clause) : Prop :=
    (forall c, In c (kept conds) -> canPre (cl_att c) = true) /\
    (forall o, In o (live orders) -> canPre (orderAtt addTo attach o) = true) /\
    (forall q, In q (query_keys conds orders) -> rq_partial q = None).
  Definition pre_ok (c : clause) : Prop :=
    forall f T v, cl_pre c = Some f -> f T = false -> length T = length (cl_vals c) ->
    Forall2 (fun b o => b = true \/ o = None) T v -> fst (cl_cons c v) = false.
  (** Does the condition hold of a row with none of its query keys? *)
  Definition holds_of_none (c : clause) : bool := fst (cl_cons c (map (fun _ => None) (cl_vals c))).
  (** What the fast scan needs (C23): one condition, the orderings that use query keys on its column, a sound pre-filter; if the
      condition holds of rows with none of its keys there is no such ordering, otherwise there is no
      whole-column query key. *)
  Definition fast_ok (conds orders : list clause) : Prop :=
    match kept conds with
    | [] => True
    | [c] => (forall o, In o (live orders) -> bare attach curKeyOrdering o = false -> cl_att o = cl_att c) /\ pre_ok c /\
             (if holds_of_none c then forall o, In o (live orders) -> bare attach curKeyOrdering o = true else forall q, In q (query_keys conds orders) -> isMany q = false)
    | _ => False
    end.

  (** [ever]: the rows that were in the table at some time (their keys may still be in the index). *)
  Record covered (ever table : list hrow) (conds orders : list clause) : Prop := {
    cov_partial : forall q, In q (query_keys conds orders) -> partial_ok compareFn (table_key compareFn addTo ever (rq_att q)) q;
    (** attached values are not NULL when several keys are merged in their order *)
    cov_null : forall q r, In q (query_keys conds orders) -> isMany q = true -> useAlt = true -> rq_att q = addTo -> In r table -> r_attach r <> None;
    cov_modes : forall c, In c conds -> ~ In c (kept conds) -> modeOf c = 0;
    cov_columns : forall c, In c conds -> cl_att c = addTo -> cl_att c <> attach;
    (** a query without conditions has no ordering; then rows without keys in column 1 are not found *)
    cov_empty : conds = [] -> live orders = [] /\ forall r, In r table -> has_column1 addTo r;
    (** with an index ordered by the attached column: conditions and orderings all on the column it is
        attached to, or none *)
    cov_kind : useAlt = true -> (forall o, In o (live orders) -> bare attach curKeyOrdering o = false) /\
      exists a, forall c, In c (kept conds ++ live orders) -> (cl_att c =? addTo)%N = a;
    cov_fast : goes_fast conds orders -> fast_ok conds orders }.
End Covered.

(** ** The index *)
(** The rows that were in the table at some time, and those that are in it now. *)
Definition ever {K} (built : list (@hrow K datum * bool)) (history : list (event K)) : list (@hrow K datum) := map fst built ++ inserted history.
Definition rows_now {K} (built : list (@hrow K datum * bool)) (history : list (event K)) : list (@hrow K datum) := table_after (map fst built) history.
(** [ix] is the index CREATE INDEX over [built] and then the INSERTs and VACUUMs [history] leave (C48, which also shows
    that it exists): order_by_attach is [useAlt], the values are attached to column [addTo]. *)
Record table_index {K} (compareFn : N -> K -> K -> Z) (altOf : N -> bool) (attrOf : N -> attr) (cmpA : datum -> datum -> Z)
  (rawSize : ekey K -> N) (dflt : K) (useAlt : bool) (addTo : N) (built : list (@hrow K datum * bool)) (history : list (event K)) (ix : @istate K) : Prop := {
  ti_columns : columns_ok compareFn altOf attrOf cmpA;
  ti_alt : forall n, altOf n = andb useAlt (n =? addTo)%N;
  ti_table : table_ok compareFn altOf attrOf rawSize addTo useAlt built history;
  ti_offs : forall r, In r (ever built history) -> off (r_tid r) <> 0%N;
  ti_made : exists qsort, sorter qsort /\
    (forall k l, In (k, l) (build_calls compareFn cmpA useAlt addTo qsort built) -> (length l <= 1)%nat \/ attr_align (attrOf (k_att k)) = 1%N) /\
    exists ix0, indexRun compareFn altOf attrOf cmpA rawSize dflt (emptyIndex dflt) (table_calls compareFn cmpA useAlt addTo qsort built []) = Some ix0 /\
      indexLife compareFn altOf attrOf cmpA rawSize dflt addTo ix0 history = Some ix }.
(** The uninitialised memory [junk q] a scan may read for the query key [q] does no harm to it: see [junk_ok].  Without a
    VACUUM any memory is harmless. *)
Definition junk_fine {K} (compareFn : N -> K -> K -> Z) (ix : @istate K) (q : qreq K) (junk : item datum) : Prop :=
  forall tuples t n st, allTuples ix = Some tuples -> In t tuples -> rumCompareAttEntries compareFn (t_key t) (mkKey (rq_att q) (rq_key q) (rq_cat q)) = 0 ->
    t_data t = PTree n -> nth_error (i_trees ix) n = Some st -> junk_ok st junk.
Definition junk_harmless {K} (compareFn : N -> K -> K -> Z) (history : list (event K)) (ix : @istate K) (junk : qreq K -> item datum) : Prop :=
  has_vacuum history -> forall q, junk_fine compareFn ix q (junk q).
(** What is assumed of the sort of query keys in startScan (qsort_arg with cmpEntries, descending). *)
Definition sorts_entries (useAlt : bool) (addTo : N) (cmpA : datum -> datum -> Z) (sortEnts : list (entry datum) -> list nat) : Prop :=
  forall ents, Permutation (sortEnts ents) (seq 0 (length ents)) /\
    StronglySorted (fun a b => 0 <= cmpEntries useAlt addTo cmpA (ent ents a) (ent ents b)) (sortEnts ents).
