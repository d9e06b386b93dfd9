(** C20, C21, C44, C45: the whole index - entry tree, posting lists and posting trees.
    Vocabulary: IndexSpec.v; model: EntryTree.v, BTree.v, PostingTree.v, Entries.v, Bulk.v. *)
From Verif Require Import Base Ord OrdProof Codec CodecSpec LeafSpec Entries Bulk BulkSpec BulkProof BTree PostingTree PostingTreeSpec
  PropTreeProof EntryTree IndexSpec IndexProof IndexHeap IndexExamples.
From Coq Require Import NArith ZArith List Permutation Sorted.
Import ListNotations.

(** C20.  After any history of insertions into a new index (no insertion fails), a search for a key
    gives nothing iff the key was never inserted, else exactly its rows, once each, in index order;
    the keys are stored once each, in key order. *)
Theorem C20_index_holds_inserted : forall (K : Type) (compareFn : N -> K -> K -> Z) altOf attrOf cmpA rawSize (dflt : K),
  columns_ok compareFn altOf attrOf cmpA ->
  forall calls, Forall (call_ok altOf attrOf cmpA rawSize) calls ->
  exists ix, indexRun compareFn altOf attrOf cmpA rawSize dflt (emptyIndex dflt) calls = Some ix /\
    index_holds compareFn altOf cmpA ix calls.
Proof. intros K compareFn altOf attrOf cmpA rawSize dflt H calls. exact (index_history compareFn altOf attrOf cmpA rawSize dflt H true calls eq_refl). Qed.
Print Assumptions C20_index_holds_inserted.

(** Nine insertions of six keys that split the entry tree and move key 3 to a posting tree. *)
Example C20_hypotheses_met : columns_ok zf off0 bigA zcmp /\ Forall (call_ok off0 bigA zcmp ksz) excalls /\
  indexRun zf off0 bigA zcmp ksz 0%Z (emptyIndex 0%Z) excalls = Some exix /\
  length (i_entry exix) = 3 /\ length (i_trees exix) = 1 /\
  rowblks (keyRows zf exix (nk 3)) = Some (Some [1; 7; 8]%N) /\ rowblks (keyRows zf exix (nk 4)) = Some (Some [4]%N) /\
  rowblks (keyRows zf exix (nk 9)) = Some None.
Proof. split; [exact ex_columns|]. split; [exact excalls_ok|]. split; [exact exix_run|exact exix_facts]. Qed.

(** A new key whose tuple would pass the size limit is refused and nothing is changed. *)
Theorem C20_too_big_refused : forall (K : Type) (compareFn : N -> K -> K -> Z) altOf attrOf cmpA rawSize (dflt : K),
  columns_ok compareFn altOf attrOf cmpA ->
  forall ix acked tried build k rows, ireaches compareFn altOf attrOf cmpA rawSize dflt ix acked tried ->
  ~ key_fits rawSize k -> Forall (storable (altOf (k_att k)) (attrOf (k_att k))) rows ->
  (forall c, In c tried -> rumCompareAttEntries compareFn (call_key c) k <> 0%Z) ->
  rumEntryInsert compareFn altOf attrOf cmpA rawSize dflt build ix k rows = Some ([], TooBig).
Proof. intros K compareFn altOf attrOf cmpA rawSize dflt H ix acked tried b k rows. exact (index_too_big compareFn altOf attrOf cmpA rawSize dflt H true ix acked tried b k rows eq_refl). Qed.
Print Assumptions C20_too_big_refused.

(** sizes: 2000 bytes for every key but key 9, which has 3000 *)
Example C20_too_big_met : let sz := fun k : ekey Z => if (k_val k =? 9)%Z then 3000%N else 16%N in
  ~ key_fits sz (nk 9) /\ key_fits sz (nk 8) /\ Forall (storable false big_attr) [bigrow 1] /\
  ireaches zf off0 bigA zcmp sz 0%Z (emptyIndex 0%Z) [] [].
Proof.
  split; [vm_compute; intro H; apply H; reflexivity|]. split; [vm_compute; discriminate|]. split; [|constructor].
  destruct (bigrow_valid 1) as (_ & H & _); [reflexivity|exact H].
Qed.

(** C21.  One insertion into an index reached by any history (with crashes): afterwards the key
    holds its old rows and the new ones (a row stored already is not stored again), in index order,
    however the rows are stored before and after; every other key keeps exactly its rows. *)
Theorem C21_growing_a_key : forall (K : Type) (compareFn : N -> K -> K -> Z) altOf attrOf cmpA rawSize (dflt : K),
  columns_ok compareFn altOf attrOf cmpA ->
  forall ix acked tried build k items tr, ireaches compareFn altOf attrOf cmpA rawSize dflt ix acked tried ->
  call_ok altOf attrOf cmpA rawSize (build, k, items) ->
  rumEntryInsert compareFn altOf attrOf cmpA rawSize dflt build ix k items = Some (tr, Done) ->
  let order := compareRumItem (altOf (k_att k)) cmpA in
  (exists old new, keyRows compareFn ix k = Some old /\ keyRows compareFn (last tr ix) k = Some (Some new) /\
     ssorted order new /\
     (forall x, In x (match old with Some R => R | None => [] end) -> In x new) /\
     (forall x, In x new -> In x (match old with Some R => R | None => [] end) \/ In x items) /\
     (forall x, In x items -> exists y, In y new /\ order y x = 0%Z)) /\
  (forall k', rumCompareAttEntries compareFn k k' <> 0%Z -> keyRows compareFn (last tr ix) k' = keyRows compareFn ix k').
Proof. exact @insert_local. Qed.
Print Assumptions C21_growing_a_key.

(** An insertion that moves a key from its posting list to a new posting tree. *)
Example C21_hypotheses_met : ireaches zf off0 bigA zcmp ksz 0%Z exix6 (firstn 6 excalls) (firstn 6 excalls) /\
  call_ok off0 bigA zcmp ksz (false, nk 3, [bigrow 8]) /\
  exists tr, rumEntryInsert zf off0 bigA zcmp ksz 0%Z false exix6 (nk 3) [bigrow 8] = Some (tr, Done) /\
  length (i_trees exix6) = 0 /\ length (i_trees (last tr exix6)) = 1.
Proof. split; [exact six_reach|]. split; [apply (ex_call_ok 3 8); reflexivity|exact growth_example]. Qed.

(** C44.  A crash after any logged change of an insertion: the index holds exactly what the completed
    insertions gave it, or that and a prefix of the rows being inserted under the key. *)
Theorem C44_crash_during_insertion : forall (K : Type) (compareFn : N -> K -> K -> Z) altOf attrOf cmpA rawSize (dflt : K),
  columns_ok compareFn altOf attrOf cmpA ->
  forall calls build k items, Forall (call_ok altOf attrOf cmpA rawSize) calls -> call_ok altOf attrOf cmpA rawSize (build, k, items) ->
  exists ix tr, indexRun compareFn altOf attrOf cmpA rawSize dflt (emptyIndex dflt) calls = Some ix /\
    rumEntryInsert compareFn altOf attrOf cmpA rawSize dflt build ix k items = Some (tr, Done) /\
    index_holds compareFn altOf cmpA ix calls /\
    forall s, In s tr -> index_holds compareFn altOf cmpA s calls \/
      exists u v, items = u ++ v /\ index_holds compareFn altOf cmpA s (calls ++ [(build, k, u)]).
Proof. intros K compareFn altOf attrOf cmpA rawSize dflt H calls b k items. exact (index_crash compareFn altOf attrOf cmpA rawSize dflt H true calls b k items eq_refl). Qed.
Print Assumptions C44_crash_during_insertion.

(** C44, any number of crashes and failed insertions: nothing completed is lost, nothing is found that
    was not inserted, order is kept.  A later acceptable insertion is never refused for its size and
    never meets a broken page; it can end with the "lost path" error (C13). *)
Theorem C44_crash_histories : forall (K : Type) (compareFn : N -> K -> K -> Z) altOf attrOf cmpA rawSize (dflt : K),
  columns_ok compareFn altOf attrOf cmpA ->
  forall ix acked tried, ireaches compareFn altOf attrOf cmpA rawSize dflt ix acked tried ->
  index_between compareFn altOf cmpA ix acked tried /\
  forall build k rows, call_ok altOf attrOf cmpA rawSize (build, k, rows) ->
    exists tr out, rumEntryInsert compareFn altOf attrOf cmpA rawSize dflt build ix k rows = Some (tr, out) /\ out <> TooBig.
Proof. intros K compareFn altOf attrOf cmpA rawSize dflt H ix acked tried. exact (index_crashes compareFn altOf attrOf cmpA rawSize dflt H true ix acked tried eq_refl). Qed.
Print Assumptions C44_crash_histories.

(** A crash between the record of the new posting tree and that of the entry tree. *)
Example C44_hypotheses_met : ireaches zf off0 bigA zcmp ksz 0%Z excut (firstn 6 excalls) (firstn 7 excalls) /\
  length (i_trees excut) = 1 /\ rowblks (keyRows zf excut (nk 3)) = Some (Some [1]%N).
Proof. exact excut_reach. Qed.

(** C45.  CREATE INDEX over any table (whatever the points where the accumulator is flushed) followed
    by any number of INSERTs: no step fails, and a search for any key gives exactly the rows of the
    table that contain it, once each, in index order, with their attached values.  The hypotheses:
    rows of a table have distinct addresses, keys and rows are within the size limits, in an
    attach-ordered index the build reads rows in address order (C39), and a key is handed over with
    more than one row at a time only if attached values need no alignment (C08). *)
Theorem C45_index_agrees_with_table : forall (K : Type) (compareFn : N -> K -> K -> Z) altOf attrOf cmpA rawSize (dflt : K),
  columns_ok compareFn altOf attrOf cmpA ->
  forall (useAlt : bool) (addTo : N), (forall n, altOf n = andb useAlt (n =? addTo)%N) ->
  forall qsort, sorter qsort ->
  forall (built : list (@hrow K datum * bool)) (added : list (@hrow K datum)),
  Forall (fun rf => hrow_ok compareFn (fst rf)) built -> Forall (hrow_ok compareFn) added ->
  NoDup (map r_tid (map fst built ++ added)) ->
  Forall (fun p => key_fits rawSize (fst p) /\ storable (altOf (k_att (fst p))) (attrOf (k_att (fst p))) (snd p))
    (flat_map (row_pairs addTo) (map fst built ++ added)) ->
  (useAlt = false \/ StronglySorted (fun s t => (rumCompareItemPointers s t <= 0)%Z) (map (fun rf => r_tid (fst rf)) built)) ->
  (forall k l, In (k, l) (build_calls compareFn cmpA useAlt addTo qsort built) -> length l <= 1 \/ attr_align (attrOf (k_att k)) = 1%N) ->
  exists ix, indexRun compareFn altOf attrOf cmpA rawSize dflt (emptyIndex dflt) (table_calls compareFn cmpA useAlt addTo qsort built added) = Some ix /\
    index_agrees compareFn altOf cmpA addTo ix (map fst built ++ added).
Proof. exact @index_of_table. Qed.
Print Assumptions C45_index_agrees_with_table.

(** Four rows at CREATE INDEX, two INSERTs, in an order_by_attach index: key 4 has five rows, in order of the
    attached values 9, 10, 10, 11, 30. *)
Example C45_hypotheses_met : columns_ok zf alt1 val8 dcmp /\ sorter (@isort (item datum)) /\
  Forall (fun rf => hrow_ok zf (fst rf)) tbuilt /\ Forall (hrow_ok zf) tadded /\
  NoDup (map r_tid (map fst tbuilt ++ tadded)) /\
  Forall (fun p => key_fits ksz (fst p) /\ storable (alt1 (k_att (fst p))) (val8 (k_att (fst p))) (snd p)) (flat_map (row_pairs 1) (map fst tbuilt ++ tadded)) /\
  StronglySorted (fun s t => (rumCompareItemPointers s t <= 0)%Z) (map (fun rf => r_tid (fst rf)) tbuilt) /\
  rowblks match indexRun zf alt1 val8 dcmp ksz 0%Z (emptyIndex 0%Z) (table_calls zf dcmp true 1 isort tbuilt tadded) with
          | Some ix => keyRows zf ix (nk 4) | None => None end = Some (Some [9; 3; 12; 5; 4]%N).
Proof. exact table_example. Qed.
