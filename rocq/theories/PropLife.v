(** C48: the life of an index - CREATE INDEX, then INSERTs and VACUUMs in any order.
    Vocabulary: LifeSpec.v, IndexSpec.v; model: VacIndex.v, VacuumTree.v, EntryTree.v, BTree.v, PostingTree.v, Bulk.v. *)
From Verif Require Import Base Ord OrdProof Codec CodecSpec LeafSpec Entries Bulk BulkSpec BulkProof BTree PostingTree PostingTreeSpec
  PropTreeProof EntryTree IndexSpec IndexExamples VacTreeSpec VacIndex LifeSpec LifeProof LifeExamples.
From Coq Require Import NArith ZArith List Permutation Sorted.
Import ListNotations.

(** C48.  CREATE INDEX over any table, then any sequence of INSERTs and VACUUMs (a heap address being used again only after
    a VACUUM removed its row): no step fails; at the end a search for any key gives exactly the rows now in the table that
    contain it, once each, in index order, with their attached values; every key stored comes from a row that was once
    inserted, each key once, in key order. *)
Theorem C48_index_exact_through_vacuums : forall (K : Type) (compareFn : N -> K -> K -> Z) altOf attrOf cmpA rawSize (dflt : K) (addTo : N),
  columns_ok compareFn altOf attrOf cmpA ->
  forall (useAlt : bool), (forall n, altOf n = andb useAlt (n =? addTo)%N) ->
  forall qsort, sorter qsort ->
  forall (built : list (@hrow K datum * bool)) (history : list (event K)),
  table_ok compareFn altOf attrOf rawSize addTo useAlt built history ->
  (forall k l, In (k, l) (build_calls compareFn cmpA useAlt addTo qsort built) -> length l <= 1 \/ attr_align (attrOf (k_att k)) = 1%N) ->
  exists ix0 ix,
    indexRun compareFn altOf attrOf cmpA rawSize dflt (emptyIndex dflt) (table_calls compareFn cmpA useAlt addTo qsort built []) = Some ix0 /\
    indexLife compareFn altOf attrOf cmpA rawSize dflt addTo ix0 history = Some ix /\
    index_finds compareFn altOf cmpA addTo ix (table_after (map fst built) history) /\
    keys_from compareFn addTo ix (map fst built ++ inserted history).
Proof. exact @life_exact. Qed.
Print Assumptions C48_index_exact_through_vacuums.

(** A life with two VACUUMs: a posting tree loses a leaf, keys 5 and 6 lose all rows, an address is used again. *)
Example C48_hypotheses_met : columns_ok zf off0 bigA zcmp /\ sorter (@isort (item datum)) /\ table_ok zf off0 bigA ksz 0 false lbuilt lhist /\
  (forall k l, In (k, l) (build_calls zf zcmp false 0 isort lbuilt) -> length l <= 1 \/ attr_align (bigA (k_att k)) = 1%N) /\
  indexLife zf off0 bigA zcmp ksz 0%Z 0 lstart lhist = Some (lix lhist) /\
  rowblks (keyRows zf (lix lhist) (nk 3)) = Some (Some [2; 3; 7; 9]%N) /\ rowblks (keyRows zf (lix lhist) (nk 5)) = Some (Some []).
Proof.
  split; [exact ex_columns|]. split; [exact isort_sorter|]. split; [exact ltable_ok|]. split; [exact lsingle|]. split; [exact (proj1 lix_run)|].
  destruct lfacts as (_ & _ & _ & H1 & H2 & _). auto.
Qed.

(** C48, crashes.  After any such life a VACUUM runs to its end; after a crash at any of its logged changes a search gives
    only rows of the table that contain the key, in index order, and among them all that are not dead. *)
Theorem C48_crash_during_vacuum : forall (K : Type) (compareFn : N -> K -> K -> Z) altOf attrOf cmpA rawSize (dflt : K) (addTo : N),
  columns_ok compareFn altOf attrOf cmpA ->
  forall (useAlt : bool), (forall n, altOf n = andb useAlt (n =? addTo)%N) ->
  forall qsort, sorter qsort ->
  forall (built : list (@hrow K datum * bool)) (history : list (event K)),
  table_ok compareFn altOf attrOf rawSize addTo useAlt built history ->
  (forall k l, In (k, l) (build_calls compareFn cmpA useAlt addTo qsort built) -> length l <= 1 \/ attr_align (attrOf (k_att k)) = 1%N) ->
  forall ix0 ix dead,
  indexRun compareFn altOf attrOf cmpA rawSize dflt (emptyIndex dflt) (table_calls compareFn cmpA useAlt addTo qsort built []) = Some ix0 ->
  indexLife compareFn altOf attrOf cmpA rawSize dflt addTo ix0 history = Some ix ->
  exists tr, rumbulkdelete altOf attrOf rawSize dead ix = Some (tr, Done) /\
    forall s, In s tr -> index_vacuuming compareFn altOf cmpA addTo dead s (table_after (map fst built) history).
Proof. exact @life_crash. Qed.
Print Assumptions C48_crash_during_vacuum.

(** The four points at which a VACUUM of that index can stop, and what a search for key 3 then gives. *)
Example C48_crash_met :
  indexRun zf off0 bigA zcmp ksz 0%Z (emptyIndex 0%Z) (table_calls zf zcmp false 0 isort lbuilt []) = Some lstart /\
  indexLife zf off0 bigA zcmp ksz 0%Z 0 lstart (firstn 6 lhist) = Some (lix (firstn 6 lhist)) /\
  exists tr, rumbulkdelete off0 bigA ksz (deadIn [3; 4; 5; 6]%N) (lix (firstn 6 lhist)) = Some (tr, Done) /\
  map (fun s => rowblks (keyRows zf s (nk 3))) tr =
    [Some (Some [1; 2; 3; 4; 5; 6; 7; 8; 9]); Some (Some [1; 2; 4; 5; 6; 7; 8; 9]); Some (Some [1; 2; 7; 8; 9]); Some (Some [1; 2; 7; 8; 9])]%N.
Proof. split; [exact lstart_run|]. split; [exact (proj2 lix_run)|exact lcrash]. Qed.
