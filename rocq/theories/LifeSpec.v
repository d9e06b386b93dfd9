(** The life of an index (C48): CREATE INDEX, then INSERTs and VACUUMs in any order. *)
From Verif Require Import Base Ord Codec Entries Bulk BulkSpec BTree PostingTree PostingTreeSpec EntryTree IndexSpec VacTreeSpec VacIndex.
From Coq Require Import NArith ZArith Bool List Permutation Sorted.
Import ListNotations.

(** INSERT of a row; VACUUM told which heap addresses are dead (rows deleted and visible to nobody). *)
Inductive event (K : Type) := EIns (r : @hrow K datum) | EVac (dead : iptr -> bool).
Arguments EIns {K}. Arguments EVac {K}.

Section Life.
  Context {K : Type}.
  Notation hrow := (@hrow K datum).
  Notation event := (event K).

  (** ** The table: its rows, dead ones not yet vacuumed included. *)
  Definition vacuumed (dead : iptr -> bool) (table : list hrow) : list hrow := filter (fun r => negb (dead (r_tid r))) table.
  Fixpoint table_after (table : list hrow) (history : list event) : list hrow :=
    match history with
    | [] => table
    | EIns r :: h => table_after (table ++ [r]) h
    | EVac dead :: h => table_after (vacuumed dead table) h
    end.
  (** All rows ever inserted. *)
  Definition inserted (history : list event) : list hrow := flat_map (fun e => match e with EIns r => [r] | EVac _ => [] end) history.
  (** A heap address is used again only after a vacuum removed the row that had it. *)
  Fixpoint fresh_tids (table : list hrow) (history : list event) : Prop :=
    match history with
    | [] => True
    | EIns r :: h => ~ In (r_tid r) (map r_tid table) /\ fresh_tids (table ++ [r]) h
    | EVac dead :: h => fresh_tids (vacuumed dead table) h
    end.
  Definition has_vacuum (history : list event) : Prop := exists dead, In (EVac dead) history.

  (** ** The index *)
  Variable compareFn : N -> K -> K -> Z.
  Variable altOf : N -> bool.
  Variable attrOf : N -> attr.
  Variable cmpA : datum -> datum -> Z.
  Variable rawSize : ekey K -> N.
  Variable dflt : K.
  Variable addTo : N.
  (** [None]: one of the operations fails. *)
  Fixpoint indexLife (ix : @istate K) (history : list event) : option (@istate K) :=
    match history with
    | [] => Some ix
    | EIns r :: h =>
        match indexRun compareFn altOf attrOf cmpA rawSize dflt ix (map (fun c => (false, fst c, snd c)) (insert_calls addTo r)) with
        | None => None
        | Some ix' => indexLife ix' h
        end
    | EVac dead :: h =>
        match rumbulkdelete altOf attrOf rawSize dead ix with
        | Some (tr, Done) => indexLife (last tr ix) h
        | _ => None
        end
    end.
  (** Every search gives exactly the rows of the table that contain the key, once each, in index order: none when the key is
      not stored, maybe none when it is (vacuum leaves keys without rows in the index). *)
  Definition index_finds (ix : @istate K) (table : list hrow) : Prop :=
    forall k, exists r, keyRows compareFn ix k = Some r /\
      match r with
      | None => rows_for compareFn addTo k table = []
      | Some rows => Permutation rows (rows_for compareFn addTo k table) /\ ssorted (compareRumItem (altOf (k_att k)) cmpA) rows
      end.
  (** The keys stored are keys of rows that were in the table at some time. *)
  Definition keys_from (ix : @istate K) (ever : list hrow) : Prop :=
    exists tuples, allTuples ix = Some tuples /\ ssorted (rumCompareAttEntries compareFn) (map t_key tuples) /\
      forall t, In t tuples -> exists e, In e (flat_map (row_pairs addTo) ever) /\ rumCompareAttEntries compareFn (fst e) (t_key t) = 0%Z.
  (** A vacuum cut short: a search gives only rows of the table that contain the key, in index order, and all those that are
      not dead. *)
  Definition index_vacuuming (dead : iptr -> bool) (ix : @istate K) (table : list hrow) : Prop :=
    forall k, exists r, keyRows compareFn ix k = Some r /\
      match r with
      | None => rows_for compareFn addTo k table = []
      | Some rows => ssorted (compareRumItem (altOf (k_att k)) cmpA) rows /\ incl rows (rows_for compareFn addTo k table) /\
          forall x, In x (rows_for compareFn addTo k table) -> dead (ip x) = false -> In x rows
      end.

  (** ** What the rows must be: extraction's promises (C18), storable keys and attached values (C01, C05), and CREATE INDEX
      sees the heap in order when the index is ordered by the attached column (C21). *)
  Record table_ok (useAlt : bool) (built : list (hrow * bool)) (history : list event) : Prop := {
    to_rows : Forall (hrow_ok compareFn) (map fst built ++ inserted history);
    to_tids : NoDup (map r_tid (map fst built));
    to_fresh : fresh_tids (map fst built) history;
    to_fit : Forall (fun p : ekey K * item datum => key_fits rawSize (fst p) /\ storable (altOf (k_att (fst p))) (attrOf (k_att (fst p))) (snd p))
               (flat_map (row_pairs addTo) (map fst built ++ inserted history));
    to_heap : useAlt = false \/ StronglySorted (fun s t => (rumCompareItemPointers s t <= 0)%Z) (map (fun rf => r_tid (fst rf)) built) }.
End Life.
