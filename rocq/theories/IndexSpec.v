(** Specification vocabulary for the whole index (C20, C21, C44). *)
From Verif Require Import Base Ord Codec CodecSpec LeafSpec Entries Bulk BulkSpec BTree PostingTree PostingTreeSpec EntryTree.
From Coq Require Import NArith ZArith Permutation.
Local Open Scope N_scope.

Section Spec.
  Context {K : Type}.
  Variable compareFn : N -> K -> K -> Z.
  Variable altOf : N -> bool.
  Variable attrOf : N -> attr.
  Variable cmpA : datum -> datum -> Z.
  Variable rawSize : ekey K -> N.
  Variable dflt : K.
  Notation kcmp := (rumCompareAttEntries compareFn).

  (** The columns: a total order on keys, an acceptable attached-value column each. *)
  Definition columns_ok : Prop :=
    (forall n, total_cmp (compareFn n)) /\ total_cmp cmpA /\
    (forall n, config_ok (altOf n) (attrOf n)) /\ (forall n, safe_align (attrOf n)).

  (** One insertion: build flag, key, rows to add under the key. *)
  Definition call : Type := bool * ekey K * list row.
  Definition call_key (c : call) : ekey K := snd (fst c).
  Definition call_rows (c : call) : list row := snd c.
  (** A key whose tuple without rows is not over the size limit (a third of a page). *)
  Definition key_fits (k : ekey K) : Prop := MAXALIGN (MAXALIGN (rawSize k) + catByte k) <= RumMaxItemSize.
  Definition call_ok (c : call) : Prop :=
    key_fits (call_key c) /\ valid_batch (altOf (k_att (call_key c))) (attrOf (k_att (call_key c))) cmpA (call_rows c).

  (** The rows a history of insertions gives to key [k], in order of insertion. *)
  Definition given (k : ekey K) (calls : list call) : list row :=
    given_to compareFn k (map (fun c => (call_key c, call_rows c)) calls).

  (** A search for any key gives [None] when it was never inserted, else exactly the rows inserted
      with it, once each, in index order (of equal rows the first inserted); walking all tuples
      gives every inserted key once, in key order. *)
  Definition index_holds (ix : @istate K) (calls : list call) : Prop :=
    (forall k, exists r, keyRows compareFn ix k = Some r /\
       match r with
       | None => forall c, In c calls -> kcmp (call_key c) k <> 0%Z
       | Some rows =>
           (exists c, In c calls /\ kcmp (call_key c) k = 0%Z) /\
           ssorted (compareRumItem (altOf (k_att k)) cmpA) rows /\
           forall x, In x rows <-> first_of (compareRumItem (altOf (k_att k)) cmpA) (given k calls) x
       end) /\
    exists tuples, allTuples ix = Some tuples /\ ssorted kcmp (map t_key tuples) /\
      forall k, In k (map t_key tuples) <-> first_of kcmp (map call_key calls) k.

  (** Carrying out a history of insertions. *)
  Fixpoint indexRun (ix : @istate K) (calls : list call) : option (@istate K) :=
    match calls with
    | [] => Some ix
    | (build, k, rows) :: rest =>
        match rumEntryInsert compareFn altOf attrOf cmpA rawSize dflt build ix k rows with
        | Some (tr, Done) => indexRun (last tr ix) rest
        | _ => None
        end
    end.

  (** Indexes reached through insertions that complete, are cut by a crash after any number of
      logged changes, or end with an error.  [acked]: completed insertions; [tried]: all. *)
  Inductive ireaches : @istate K -> list call -> list call -> Prop :=
  | ireaches_new : ireaches (emptyIndex dflt) [] []
  | ireaches_done ix acked tried build k rows tr : ireaches ix acked tried -> call_ok (build, k, rows) ->
      rumEntryInsert compareFn altOf attrOf cmpA rawSize dflt build ix k rows = Some (tr, Done) ->
      ireaches (last tr ix) (acked ++ [(build, k, rows)]) (tried ++ [(build, k, rows)])
  | ireaches_cut ix acked tried build k rows tr out s : ireaches ix acked tried -> call_ok (build, k, rows) ->
      rumEntryInsert compareFn altOf attrOf cmpA rawSize dflt build ix k rows = Some (tr, out) -> In s (ix :: tr) ->
      ireaches s acked (tried ++ [(build, k, rows)]).

  (** Between the completed and the attempted insertions. *)
  Definition index_between (ix : @istate K) (acked tried : list call) : Prop :=
    (forall k, exists r, keyRows compareFn ix k = Some r /\
       match r with
       | None => forall c, In c acked -> kcmp (call_key c) k <> 0%Z
       | Some rows =>
           (exists c, In c tried /\ kcmp (call_key c) k = 0%Z) /\
           ssorted (compareRumItem (altOf (k_att k)) cmpA) rows /\
           (forall x, In x (given k acked) -> exists y, In y rows /\ compareRumItem (altOf (k_att k)) cmpA y x = 0%Z) /\
           (forall x, In x rows -> In x (given k tried))
       end) /\
    exists tuples, allTuples ix = Some tuples /\ ssorted kcmp (map t_key tuples) /\
      (forall c, In c acked -> exists t, In t tuples /\ kcmp (t_key t) (call_key c) = 0%Z) /\
      (forall t, In t tuples -> In (t_key t) (map call_key tried)).

  (** The insertions an index over a table goes through: CREATE INDEX over the rows [built] (the
      booleans: where the accumulator is flushed), then an INSERT of each of the rows [added]. *)
  Definition table_calls (useAlt : bool) (addTo : N) qsort (built : list (@hrow K datum * bool)) (added : list (@hrow K datum)) : list call :=
    map (fun c => (true, fst c, snd c)) (build_calls compareFn cmpA useAlt addTo qsort built) ++
    map (fun c => (false, fst c, snd c)) (flat_map (insert_calls addTo) added).
  (** Every search gives exactly the rows of the table that contain the key, once each, in index
      order. *)
  Definition index_agrees (addTo : N) (ix : @istate K) (table : list (@hrow K datum)) : Prop :=
    forall k, exists r, keyRows compareFn ix k = Some r /\
      match r with
      | None => rows_for compareFn addTo k table = []
      | Some rows => rows_for compareFn addTo k table <> [] /\ Permutation rows (rows_for compareFn addTo k table) /\
          ssorted (compareRumItem (altOf (k_att k)) cmpA) rows
      end.
End Spec.
