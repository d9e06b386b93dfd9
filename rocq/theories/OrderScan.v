(** A query with ORDER BY distance: distances of the rows a scan finds (insertScanItem, keyGetOrdering),
    the sort, and the rows rumgettuple hands out.  Model file: no proofs.

    Simplifications: the scan is not in natural order and not a full-index scan (IndexScan.v); orderings with
    a NULL argument get no place in the vector of distances; errors (elog) are left out. *)
From Verif Require Import Base Codec LeafPage Entries BTree PostingTree EntryTree ScanEntry Scan ScanSpec TidBitmap IndexScan.
From Coq Require Import NArith ZArith Bool Arith List.
Import ListNotations.
Local Open Scope Z_scope.

(** An ordering: the clause; orderingFn on the answers of its query keys (10 arguments);
    outerOrderingFn on a value of the attached column; orderingFn on a key (3 arguments). *)
Record ordering (K D : Type) := mkOrd {
  od_clause : clause K; od_fn : list (option (option datum)) -> D; od_outer : datum -> D; od_curkey : K -> D }.
Arguments mkOrd {K D}. Arguments od_clause {K D}. Arguments od_fn {K D}. Arguments od_outer {K D}. Arguments od_curkey {K D}.

Section Order.
  Context {K D : Type}.
  Notation ordering := (ordering K D).
  Notation istate := (@istate K).
  Notation etup := (etup K).
  (** float8 comparison (no NaN) and infinity. *)
  Variables (dcmp : D -> D -> Z) (dinf : D).
  Variable dflt : K.
  Variables (addTo attach : N).
  Variable curKeyOrdering : N -> bool.

  (** ** One row: insertScanItem *)
  (** What insertScanItem reads and writes of a scan key: useAddToColumn, useCurKey, attnum,
      outerAddInfo ([None]: outerAddInfoIsNull), curKey with curKeyCategory, and - when scanEntry[0] has
      useCurKey - the curKey of that query key. *)
  Record slot := mkSlot { sl_add : bool; sl_key : bool; sl_att : N; sl_outer : option datum; sl_cur : K * category; sl_ent : option (K * category) }.
  Definition isSome {T} (o : option T) : bool := match o with Some _ => true | None => false end.
  Definition wantsOuter (s : slot) : bool := sl_add s && negb (isSome (sl_outer s)).
  Definition setOuter (v : option datum) (s : slot) : slot :=
    if wantsOuter s then mkSlot (sl_add s) (sl_key s) (sl_att s) v (sl_cur s) (sl_ent s) else s.
  Definition setCur (v : K * category) (s : slot) : slot :=
    if sl_key s then mkSlot (sl_add s) (sl_key s) (sl_att s) (sl_outer s) v (sl_ent s) else s.
  Definition count (f : slot -> bool) (l : list slot) : nat := length (filter f l).
  (** The double loop (rumget.c:2482-2520); [na], [nk]: assignments still to be made (nOrderByAnother -
      countByAnother, nOrderByKey - countByKey); [fuel]: the number of keys. *)
  Fixpoint spread (fuel na nk : nat) (l : list slot) : list slot :=
    match fuel, l with
    | S f, s :: r =>
        if (na =? 0)%nat && (nk =? 0)%nat then s :: r
        else if (0 <? na)%nat && (sl_att s =? addTo)%N && isSome (sl_outer s)
        then s :: spread f (na - count wantsOuter r) nk (map (setOuter (sl_outer s)) r)
        else match sl_ent s with
             | Some c => if (0 <? nk)%nat then s :: spread f na (nk - count sl_key r) (map (setCur c) r) else s :: spread f na nk r
             | None => s :: spread f na nk r
             end
    | _, _ => l
    end.
  (** insertScanItem's preparation (rumget.c:2459-2521). *)
  Definition spreadAll (l : list slot) : list slot := spread (length l) (count sl_add l) (count sl_key l) l.

  (** The kinds of orderings (rumFillScanKey, rumscan.c:175-247). *)
  Definition useAdd (o : ordering) : bool := (cl_att (od_clause o) =? attach)%N.
  Definition useCur (o : ordering) : bool := negb (useAdd o) && curKeyOrdering (cl_att (od_clause o)).
  (** keyGetOrdering (rumget.c:2379-2446); [k]: the scan key, [s]: its slot. *)
  Definition keyGetOrdering (o : ordering) (s : slot) (k : skey datum) (ents : list (entry datum)) (p : iptr) : D :=
    if sl_add s then match sl_outer s with None => dinf | Some a => od_outer o a end
    else if sl_key s then match snd (sl_cur s) with CatNormKey => od_curkey o (fst (sl_cur s)) | _ => dinf end
    else od_fn o (firstn (length (cl_vals (od_clause o))) (checkAt ents k p)).

  (** The slots of the search keys: only what the scan left in them ([ks_outer]), and the current key of
      their first query key if an ordering uses it. *)
  Definition searchSlot (ent : option (K * category)) (att : N) (outer : option datum) : slot := mkSlot false false att outer (dflt, CatNormKey) ent.
  (** The slots of the orderings: outerAddInfoIsNull is false from palloc0 on, with Datum 0, unless the
      ordering uses the attached column; curKey is what the row before left. *)
  Definition orderSlot (o : ordering) (cur : K * category) : slot :=
    mkSlot (useAdd o) (useCur o) (orderAtt addTo attach (od_clause o)) (if useAdd o then None else Some (DVal 0)) cur None.

  (** rum_tuplesort_putrum's item (RumSortItem). *)
  Definition sitem : Type := iptr * bool * list D.
  Fixpoint insertAll (orders : list ordering) (search : iptr -> list (option datum) -> list slot) (nsearch : nat)
    (views : list (item datum * bool * list (entry datum) * list (skey datum * kst datum))) (curs : list (K * category)) : list sitem :=
    match views with
    | [] => []
    | (x, re, ents, keys) :: r =>
        let slots := search (ip x) (map (fun kk => ks_outer (snd kk)) (firstn nsearch keys)) ++
                     map (fun oc => orderSlot (fst oc) (snd oc)) (combine orders curs) in
        let slots' := skipn nsearch (spreadAll slots) in
        let okeys := map fst (skipn nsearch keys) in
        let ds := map (fun t => keyGetOrdering (fst (fst t)) (snd (fst t)) (snd t) ents (ip x)) (combine (combine orders slots') okeys) in
        (ip x, re, ds) :: insertAll orders search nsearch r (map sl_cur slots')
    end.

  (** ** The sort and rumgettuple *)
  (** comparetup_rum (rumsort.c:158-191), compareItemPointer false. *)
  Fixpoint comparetup_rum (a b : list D) : Z :=
    match a, b with
    | x :: a', y :: b' => let c := dcmp x y in if c <? 0 then -1 else if 0 <? c then 1 else comparetup_rum a' b'
    | _, _ => 0
    end.
  (** rumgettuple (rumget.c:2561-2660): rows equal to the one given out before are passed over; the scan's
      TID is invalid at the start. *)
  Fixpoint gettuples (prev : iptr) (l : list sitem) : list sitem :=
    match l with
    | [] => []
    | s :: r => if rumCompareItemPointers prev (fst (fst s)) =? 0 then gettuples prev r else s :: gettuples (fst (fst s)) r
    end.

  (** ** The query *)
  Variable compareFn : N -> K -> K -> Z.
  Variables (useAlt : bool) (cmpA : datum -> datum -> Z).
  Variable tuplesort : (row -> row -> Z) -> list row -> list row.
  Variable junk : qreq K -> row.
  Variable joinFn : joins datum.
  Variables (canPre : N -> bool) (estimate : istate -> qreq K -> N) (sortEnts : list (entry datum) -> list nat).
  Variables (visit : tbm -> list N) (iterate : list (N * pentry) -> list (N * pentry)) (tbmMax : N).
  (** rum_tuplesort_performsort on RumSortItems. *)
  Variable sortItems : (sitem -> sitem -> Z) -> list sitem -> list sitem.

  (** The entry tuple of a query key that is not a partial match (startScanEntry, rumget.c:606-640). *)
  Definition exactTuple (ix : istate) (q : qreq K) : option etup :=
    let x := mkTup (mkKey (rq_att q) (rq_key q) (rq_cat q)) (PList []) in
    match eFindLeaf compareFn (i_entry ix) x with
    | None => None
    | Some (b, _) =>
        match get (i_entry ix) b with
        | None => None
        | Some pg => let '(found, off) := et_find compareFn (p_items pg) x in
                     if found then nth_error (p_items pg) (off - 1) else None
        end
    end.
  Definition holdsTid (ix : istate) (p : iptr) (t : etup) : bool :=
    match tupleRows ix t with
    | Some rows => existsb (fun y => rumCompareItemPointers (ip y) p =? 0) rows
    | None => false
    end.
  (** entry->curKey when the query key is at row [p]: SCAN_ENTRY_GET_KEY and SCAN_ITEM_PUT_KEY
      (rumget.c:40-68), entryGetItem (rumget.c:1240-1312).  Simplification: of several keys of the row, the
      last in index order (the code: the last the sort left). *)
  Definition curKeyAt (ix : istate) (q : qreq K) (p : iptr) : K * category :=
    let key (t : etup) := (k_val (t_key t), k_cat (t_key t)) in
    if isMany q then
      match tuplesFrom compareFn ix (mkKey (rq_att q) (rq_key q) (rq_cat q)) with
      | Some l => match rev (filter (holdsTid ix p) (collectMatch q l)) with t :: _ => key t | [] => (dflt, CatNormKey) end
      | None => (dflt, CatNormKey)
      end
    else match exactTuple ix q with Some t => key t | None => (dflt, CatNormKey) end.
  (** The slots of the search keys: scanEntry[0]->useCurKey is set in the first search key on the column of
      an ordering by key (rumscan.c:212-236). *)
  Fixpoint searchSlots (ix : istate) (wanted : list N) (p : iptr) (ks : list kspec) (outers : list (option datum)) : list slot :=
    match ks, outers with
    | k :: r, o :: os =>
        let ent := if existsb (N.eqb (kp_att k)) wanted
                   then match kp_reqs k with q :: _ => Some (curKeyAt ix q p) | [] => None end else None in
        searchSlot ent (kp_att k) o :: searchSlots ix (filter (fun a => negb (a =? kp_att k)%N) wanted) p r os
    | _, _ => []
    end.
  Definition liveOrders (orders : list ordering) : list ordering := filter (fun o => negb (noKey (od_clause o))) orders.

  (** All calls of rumgettuple: rows, recheck flags and distances. *)
  Definition orderedScan (ix : istate) (conds : list (clause K)) (orders : list ordering) : option (list sitem) :=
    match newScanKeys dflt addTo attach curKeyOrdering conds (map od_clause orders) with
    | None => Some []
    | Some ks =>
        match findEntries addTo compareFn useAlt cmpA tuplesort junk estimate ix (flat_map kp_reqs ks) with
        | None => None
        | Some es =>
            let ents := map start es in
            let keys := numbered 0 ks in
            let os := liveOrders orders in
            let nsearch := (length ks - length os)%nat in
            let views :=
              if isFast canPre ks
              then map (fun o => (fst (fst o), snd (fst o), f_ents (snd o), f_keys (snd o)))
                     (scanFast useAlt addTo cmpA joinFn ents keys (sortEnts (startEntries useAlt addTo cmpA joinFn ents)))
              else map (fun o => (fst (fst o), snd (fst o), s_ents (snd o), s_keys (snd o)))
                     (scanRegular useAlt addTo cmpA joinFn visit iterate tbmMax ents keys) in
            let search p outers := searchSlots ix (map (fun o => cl_att (od_clause o)) (filter useCur os)) p (firstn nsearch ks) outers in
            let items := insertAll os search nsearch views (map (fun _ => (dflt, CatNormKey)) os) in
            Some (gettuples ip_invalid (sortItems (fun a b => comparetup_rum (snd a) (snd b)) items))
        end
    end.
End Order.
