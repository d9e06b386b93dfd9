(** A query without conditions and with ORDER BY: the full-index scan (startScanEntry, entryGetNextItemList,
    scanGetItemFull in rumget.c).  Model file: no proofs.

    Simplifications: orderings by the attached value or by the key only (those with query keys: not modelled); no one-sided
    distance on an index ordered by the attached column (the scan would be in natural order); a posting tree is read
    page after page ([tupleRows]); the index does not change during the scan. *)
From Verif Require Import Base Codec LeafPage Entries BTree PostingTree EntryTree ScanEntry Scan TidBitmap IndexScan OrderScan.
From Coq Require Import NArith ZArith Bool Arith List.
Import ListNotations.
Local Open Scope Z_scope.

Section Full.
  Context {K D : Type}.
  Notation ordering := (ordering K D).
  Notation istate := (@istate K).
  Notation etup := (etup K).
  Variables (dcmp : D -> D -> Z) (dinf : D).
  Variable dflt : K.
  Variables (addTo attach : N).
  Variable curKeyOrdering : N -> bool.
  Variable compareFn : N -> K -> K -> Z.

  (** A row the scan is at, with entry->curKey and curKeyCategory (SCAN_ENTRY_GET_KEY, rumget.c:40-52). *)
  Definition at_tuple (t : etup) (rows : list row) : list (row * (K * category)) :=
    map (fun y => (y, (k_val (t_key t), k_cat (t_key t)))) rows.
  (** What the memory just allocated for a tuple's rows holds (entry->list[0], rumget.c:1133-1147, 1168). *)
  Variable junk : etup -> row.
  (** The tuple has a posting tree whose first leaf is empty. *)
  Definition firstEmpty (ix : istate) (t : etup) : bool :=
    match t_data t with
    | PList _ => false
    | PTree n =>
        match nth_error (i_trees ix) n with
        | None => false
        | Some st =>
            match leftmostLeaf (S (length st)) st 0 with
            | None => false
            | Some b => match get st b with Some pg => match p_items pg with [] => true | _ => false end | None => false end
            end
        end
    end.
  (** entryGetNextItemList for one tuple after the other (rumget.c:1032-1180), and entryGetItem (rumget.c:1335-1366).
      [None]: a tuple without rows, entry->list is NULL and is read (rumget.c:1166-1168).  list[0] is given
      out even if the tree's first leaf is empty. *)
  Fixpoint nextLists (ix : istate) (l : list etup) : option (list (row * (K * category))) :=
    match l with
    | [] => Some []
    | t :: r =>
        match tupleRows ix t with
        | None => None
        | Some rows =>
            match (if firstEmpty ix t then junk t :: rows else rows) with
            | [] => None
            | rows' => option_map (app (at_tuple t rows')) (nextLists ix r)
            end
        end
    end.
  (** startScanEntry with scanWithAddInfo (rumget.c:572-577, 623-715), then entryGetItem until it ends: the first tuple whatever
      its column; without rows, the scan is finished.  The stack stays at the first tuple, so
      entryGetNextItemList begins with it once more; it stops at the first tuple of another column ([collectMatch] with
      the EVERYTHING key).  Simplification: the code looks for the first tuple only in the page the search arrives at. *)
  Definition fullFound (ix : istate) : option (list (row * (K * category))) :=
    match tuplesFrom compareFn ix (mkKey 1 dflt CatEmptyQuery) with
    | None => None
    | Some [] => Some []
    | Some (t :: l) =>
        match tupleRows ix t, t_data t with
        | None, _ => None
        | Some _, PList [] => Some []
        | Some rows, _ => option_map (app (at_tuple t rows)) (nextLists ix (collectMatch (everything dflt) (t :: l)))
        end
    end.

  (** scanGetItemFull (rumget.c:2252-2315) and insertScanItem (rumget.c:2450-2536): the slot of the EVERYTHING key -
      callAddInfoConsistentFn (rumget.c:69-107) sets its outerAddInfo only if column 1 has attached values -
      and those of the orderings. *)
  Definition everySlot (os : list ordering) (y : row) (c : K * category) : @slot K :=
    mkSlot false false 1 (if (1 =? addTo)%N then add y else Some (DVal 0)) (dflt, CatNormKey)
      (if existsb (useCur attach curKeyOrdering) os then Some c else None).
  Fixpoint fullItems (os : list ordering) (found : list (row * (K * category))) (curs : list (K * category)) : list (@sitem D) :=
    match found with
    | [] => []
    | (y, c) :: r =>
        let slots := everySlot os y c :: map (fun oc => orderSlot addTo attach curKeyOrdering (fst oc) (snd oc)) (combine os curs) in
        let slots' := skipn 1 (spreadAll addTo slots) in
        let ds := map (fun t => keyGetOrdering dinf (fst t) (snd t) (kp_key (orderKey dflt addTo attach curKeyOrdering true (od_clause (fst t))) []) [] (ip y))
                    (combine os slots') in
        (ip y, false, ds) :: fullItems os r (map sl_cur slots')
    end.

  (** comparetup_rum_true (rumsort.c:193-198). *)
  Definition comparetup_true (a b : @sitem D) : Z :=
    let c := comparetup_rum dcmp (snd a) (snd b) in
    if c =? 0 then rumCompareItemPointers (fst (fst a)) (fst (fst b)) else c.

  Variable sortItems : (@sitem D -> @sitem D -> Z) -> list (@sitem D) -> list (@sitem D).
  (** Ordering by the key of another column than 1 raises an error (rumscan.c:222-226). *)
  Definition hasKey (o : ordering) : bool := useAdd attach o || (cl_att (od_clause o) =? 1)%N.
  (** All calls of rumgettuple.  [None]: an error, a crash, or a query that is not modelled. *)
  Definition fullScan (ix : istate) (orders : list ordering) : option (list (@sitem D)) :=
    let os := liveOrders orders in
    if forallb (fun o => bare attach curKeyOrdering (od_clause o) && hasKey o) os && negb (length os =? 0)%nat then
      match fullFound ix with
      | None => None
      | Some found => Some (gettuples ip_invalid (sortItems comparetup_true (fullItems os found (map (fun _ => (dflt, CatNormKey)) os))))
      end
    else None.
End Full.
