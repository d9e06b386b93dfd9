(** A query with one key on the whole index while other processes insert rows: startScanEntry's search of the
    entry tree, then the posting list of the tuple or a scan of its posting tree, each page read at its own
    moment.  Model file: no proofs.

    [sched t] is the index as the t-th page read of the process sees it, as in ScanConc.v.  Same
    simplifications; a plain key (no partial match, no full scan), forward direction. *)
From Verif Require Import Base Entries Codec LeafPage LeafCodec BTree PostingTree EntryTree ScanEntry ScanConc.
From Coq Require Import NArith ZArith Bool Arith List.
Import ListNotations.

(** A scan entry after startScanEntry: finished (no such key), a posting list in memory, or posting tree [n]
    whose page reads begin with page read number [t] of the process. *)
Inductive kscan := KNone | KMem (e : entry datum) | KTree (t n : nat) (c : cscan datum).

Section Query.
  Context {K : Type}.
  Variable compareFn : N -> K -> K -> Z.
  Variables (useAlt : bool) (addTo : N) (cmpA : datum -> datum -> Z).
  Variable sched : nat -> @istate K.

  (** Posting tree [n] as the u-th page read after number [t] sees it. *)
  Definition treeAt (t n u : nat) : list (page row) := nth n (i_trees (sched (t + u))) [].

  (** startScanEntry (rumget.c:565-704) for a plain key: rumFindLeafPage, findItem, then rumReadTuple or
      the opening of the posting tree.  [None]: an error, or [fuel] page reads were not enough. *)
  Definition startKeyC (fuel : nat) (k : ekey K) (junk : row) : option kscan :=
    let x := mkTup k (PList []) in
    match findLeafC (ecmp compareFn) (@et_rbound K) (et_locate compareFn) (fun t => i_entry (sched t)) fuel 0 0 0 x with
    | DLeaf t b =>
        match get (i_entry (sched t)) b with
        | None => None
        | Some pg =>
            let '(found, off) := et_find compareFn (p_items pg) x in
            if found then
              match nth_error (p_items pg) (off - 1) with
              | None => None
              | Some itup =>
                  match t_data itup with
                  | PList [] => Some KNone
                  | PList rows => Some (KMem (mkEntry (k_att k) Mem rows 0%Z (nth 0 rows junk) false 0 (fun _ => O)))
                  | PTree n =>
                      match startC (treeAt (S t) n) fuel (k_att k) junk with
                      | Some c => Some (KTree (S t) n c)
                      | None => None
                      end
                  end
              end
            else Some KNone
        end
    | _ => None
    end.

  (** [n] calls of entryGetItem (rumget.c:1361-1367) on a posting list, until it has finished. *)
  Fixpoint runMem (n : nat) (e : entry datum) : list row * entry datum :=
    match n with
    | O => ([], e)
    | S m =>
        if e_fin e then ([], e)
        else
          let e' := entryGetItem useAlt addTo cmpA (fun _ => None) e in
          let '(out, r) := runMem m e' in
          (if e_fin e' then out else e_cur e' :: out, r)
    end.

  (** [n] turns of the scan: the rows read, and whether it has come to its end ([None]: an error). *)
  Definition runKeyC (n : nat) (s : kscan) : list row * option bool :=
    match s with
    | KNone => ([], Some true)
    | KMem e => let '(out, e') := runMem n e in (out, Some (e_fin e'))
    | KTree t tree c =>
        let '(out, r) := runC useAlt addTo cmpA (treeAt t tree) n c in
        (out, match r with Some c' => Some (e_fin (c_ent c')) | None => None end)
    end.
End Query.
