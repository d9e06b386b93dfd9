(** A query on the index, from the clauses the executor hands over to the rows returned: building scan
    keys (rumscan.c), looking the query keys up in the entry tree (startScanEntry, collectMatchBitmap
    in rumget.c) and running the scan of Scan.v.  Model file: no proofs.

    Simplifications: no ORDER BY that makes the index scan in natural order (useMarkAddInfo) and no
    full-index scan (no condition but an ordering); the index does not change during the scan; errors
    raised by wrong operator classes (elog) are left out. *)
From Verif Require Import Base Codec LeafPage Entries BTree PostingTree EntryTree ScanEntry Scan ScanSpec TidBitmap.
From Coq Require Import NArith ZArith Bool Arith List.
Import ListNotations.
Local Open Scope Z_scope.

(** ** Query keys and clauses *)
(** A query key (RumScanEntryData, rum.h:665-718): column, key, category, for a partial match the
    answer of comparePartialFn on a stored key, searchMode = GIN_SEARCH_MODE_ALL. *)
Record qreq (K : Type) := mkReq { rq_att : N; rq_key : K; rq_cat : category; rq_partial : option (K -> Z); rq_all : bool }.
Arguments mkReq {K}. Arguments rq_att {K}. Arguments rq_key {K}. Arguments rq_cat {K}. Arguments rq_partial {K}. Arguments rq_all {K}.
(** A value extractQueryFn returned: key, null flag, partial match, and comparePartialFn applied to a
    value of the attached column (for clauses on it). *)
Record qval (K : Type) := mkQval { qv_key : K; qv_null : bool; qv_partial : option (K -> Z); qv_sub : datum -> Z }.
Arguments mkQval {K}. Arguments qv_key {K}. Arguments qv_null {K}. Arguments qv_partial {K}. Arguments qv_sub {K}.
(** A clause of the query (ScanKey) with the answers of its operator class: column, NULL argument,
    extractQueryFn's values and search mode, consistentFn, preConsistentFn. *)
Record clause (K : Type) := mkClause {
  cl_att : N; cl_isnull : bool; cl_vals : list (qval K); cl_mode : Z;
  cl_cons : list (option (option datum)) -> bool * bool; cl_pre : option (list bool -> bool) }.
Arguments mkClause {K}. Arguments cl_att {K}. Arguments cl_isnull {K}. Arguments cl_vals {K}. Arguments cl_mode {K}.
Arguments cl_cons {K}. Arguments cl_pre {K}.

Section Query.
  Context {K : Type}.
  Notation clause := (clause K).
  Notation qreq := (qreq K).
  (** Datum 0, the key of hidden query keys. *)
  Variable dflt : K.
  (** attrnAddToColumn, attrnAttachColumn (0 when there is none). *)
  Variables (addTo attach : N).
  (** Columns with an ordering function on key values (canOrdering, orderingFn with 3 arguments). *)
  Variable curKeyOrdering : N -> bool.

  (** The search mode, bogus values mapped to GIN_SEARCH_MODE_ALL (initScanKey, rumscan.c:409-411). *)
  Definition modeOf (c : clause) : Z := if (cl_mode c <? 0) || (2 <? cl_mode c) then 2 else cl_mode c.
  (** A clause that gives no scan key: NULL argument, or no values in the default mode (rumscan.c:385-391,
      416-425). *)
  Definition noKey (c : clause) : bool := cl_isnull c || ((modeOf c =? 0) && (length (cl_vals c) =? 0)%nat).
  (** The query keys of a clause: extractQueryFn's values, then the hidden one of a non-default mode
      (rumFillScanKey, rumscan.c:257-312; rumFillScanEntry, rumscan.c:62-134, never finds an entry to
      share since totalentries is 0 at that time). *)
  Definition reqOf (att : N) (v : qval K) : qreq :=
    mkReq att (qv_key v) (if qv_null v then CatNullKey else CatNormKey) (qv_partial v) false.
  Definition hidden (c : clause) : list qreq :=
    if modeOf c =? 1 then [mkReq (cl_att c) dflt CatEmptyItem None false]
    else if modeOf c =? 2 then [mkReq (cl_att c) dflt CatEmptyQuery None true]
    else [].
  Definition requests (c : clause) : list qreq := map (reqOf (cl_att c)) (cl_vals c) ++ hidden c.
  (** The query key of the EVERYTHING scan key (rumNewScanKey, rumscan.c:612-620): column 1. *)
  Definition everything : qreq := mkReq 1 dflt CatEmptyQuery None false.

  (** An ordering that gets no query keys (rumFillScanKey, rumscan.c:196-247). *)
  Definition bare (o : clause) : bool := (cl_att o =? attach)%N || curKeyOrdering (cl_att o).
  (** key->attnum of an ordering. *)
  Definition orderAtt (o : clause) : N := if (cl_att o =? attach)%N then addTo else cl_att o.
  (** A scan key before its query keys are numbered. *)
  Record kspec := mkKs { kp_reqs : list qreq; kp_key : list nat -> skey datum; kp_att : N }.
  (** The operator class's functions get the first nuserentries answers only. *)
  Definition userCons (c : clause) (v : list (option (option datum))) : bool * bool := cl_cons c (firstn (length (cl_vals c)) v).
  Definition userPre (c : clause) : option (list bool -> bool) :=
    option_map (fun f (v : list bool) => f (firstn (length (cl_vals c)) v)) (cl_pre c).
  Definition searchKey (subs : option (list (datum -> Z))) (willSort : bool) (c : clause) : kspec :=
    mkKs (requests c) (fun ents => mkSKey (cl_att c) false ents (userCons c) (userPre c) false subs willSort) (cl_att c).
  Definition orderKey (willSort : bool) (o : clause) : kspec :=
    mkKs (if bare o then [] else requests o)
         (fun ents => mkSKey (cl_att o) true ents (userCons o) (userPre o) false None willSort) (orderAtt o).
  Definition everyKey (willSort : bool) : kspec :=
    mkKs [everything] (fun ents => mkSKey 1%N false ents (fun _ => (true, false)) None true None willSort) 1%N.

  (** Conditions on the attached column become part of the first condition on the column it is
      attached to, when there is one (rumscan.c:650-692).  comparePartialFn is asked about all query
      keys; a hidden one is not modelled here (conditions on the attached column use the default mode). *)
  Definition onAddTo (c : clause) : bool := (cl_att c =? addTo)%N.
  Definition onAttach (c : clause) : bool := (cl_att c =? attach)%N.
  Definition movesOn (conds : list clause) : bool := existsb onAddTo conds && existsb onAttach conds.
  Definition subsOf (conds : list clause) : list (datum -> Z) :=
    flat_map (fun c => map qv_sub (cl_vals c)) (filter onAttach conds).
  Fixpoint firstAddTo (subs : option (list (datum -> Z))) (willSort : bool) (conds : list clause) : list kspec :=
    match conds with
    | [] => []
    | c :: r => if onAddTo c then searchKey subs willSort c :: map (searchKey None willSort) r
                else searchKey None willSort c :: firstAddTo subs willSort r
    end.
  Definition condKeys (willSort : bool) (conds : list clause) : list kspec :=
    if movesOn conds
    then firstAddTo (Some (subsOf conds)) willSort (filter (fun c => negb (onAttach c)) conds)
    else map (searchKey None willSort) conds.
  (** rumNewScanKey (rumscan.c:564-737): the scan keys, none when the query cannot be satisfied
      (isVoidRes). *)
  Definition newScanKeys (conds orders : list clause) : option (list kspec) :=
    if existsb noKey conds then None
    else
      let os := filter (fun o => negb (noKey o)) orders in
      let willSort := existsb bare os in
      Some ((match conds with [] => [everyKey willSort] | _ => condKeys willSort conds end) ++ map (orderKey willSort) os).
  (** so->entries: the keys' query keys one after another (rumscan.c:694-718). *)
  Fixpoint numbered (n : nat) (ks : list kspec) : list (skey datum) :=
    match ks with
    | [] => []
    | k :: r => kp_key k (seq n (length (kp_reqs k))) :: numbered (n + length (kp_reqs k)) r
    end.

  (** ** Looking a query key up *)
  Variable compareFn : N -> K -> K -> Z.
  Variables (useAlt : bool) (cmpA : datum -> datum -> Z).
  (** rum_tuplesort_performsort. *)
  Variable tuplesort : (row -> row -> Z) -> list row -> list row.
  (** What the memory allocated for a query key's rows holds (entry->list[0], rumget.c:673-689); read only when
      the first leaf of the key's posting tree is empty (C41). *)
  Variable junk : qreq -> row.
  Notation etup := (etup K).
  Notation istate := (@istate K).

  (** compareRumItem's order is not this one: comparetup_rumitem (rumsort.c:218-254) puts NULL last. *)
  Definition comparetup_rumitem (alt : bool) (a b : row) : Z :=
    if alt then
      match add a, add b with
      | Some x, Some y => let r := cmpA x y in if r =? 0 then rumCompareItemPointers (ip a) (ip b) else r
      | None, None => rumCompareItemPointers (ip a) (ip b)
      | None, Some _ => 1
      | Some _, None => -1
      end
    else rumCompareItemPointers (ip a) (ip b).

  (** The leaf level of a posting tree from [b] on: rumStep, as in walkRight (BTree.v). *)
  Fixpoint leafBlocks (fuel : nat) (st : list (page row)) (b : nat) : option (list nat) :=
    match fuel with
    | O => None
    | S f =>
        match get st b with
        | None => None
        | Some pg =>
            if negb (p_leaf pg) || p_deleted pg then None
            else match p_right pg with
                 | None => Some [b]
                 | Some r => option_map (cons b) (leafBlocks f st r)
                 end
        end
    end.
  Definition leafOf (st : list (page row)) (b : nat) : leaf datum :=
    match get st b with Some pg => mkLeaf (p_items pg) (p_bound pg) | None => mkLeaf [] item_min end.
  Fixpoint position (b : nat) (l : list nat) : nat :=
    match l with [] => O | c :: r => if (b =? c)%nat then O else S (position b r) end.
  (** rumScanBeginPostingTree (rumdatapage.c:1549-1562) and rumReFindLeafPage (rumbtree.c:74-112): the
      leaves and, for a row, the leaf a search arrives at.  Simplification: the search starts at the
      root, not at the lowest page of the old path known to cover the row.  [junk]: see [found] in Scan.v. *)
  Definition treeFound (junk : row) (alt : bool) (st : list (page row)) : option (found datum * (row -> nat)) :=
    match leftmostLeaf (S (length st)) st 0 with
    | None => None
    | Some b =>
        match leafBlocks (S (length st)) st b with
        | None => None
        | Some bs =>
            Some (FTree (map (leafOf st) bs) junk,
                  fun x => match findLeaf (compareRumItem alt cmpA) (@p_bound _) (pt_locate alt cmpA) (S (length st)) st 0 0 [] x with
                           | Some (b', _) => position b' bs
                           | None => O
                           end)
        end
    end.

  (** The entry tuples from the first not below the key on (findItem, then collectMatchBitmap's walk with
      moveRightIfItNeeded, rumget.c:190-213). *)
  Definition tuplesFrom (ix : istate) (k : ekey K) : option (list etup) :=
    let x := mkTup k (PList []) in
    match eFindLeaf compareFn (i_entry ix) x with
    | None => None
    | Some (b, _) =>
        match get (i_entry ix) b with
        | None => None
        | Some pg =>
            let '(_, off) := et_find compareFn (p_items pg) x in
            let here := skipn (off - 1) (p_items pg) in
            match p_right pg with
            | None => Some here
            | Some r => option_map (app here) (walkRight (S (length (i_entry ix))) (i_entry ix) r)
            end
        end
    end.
  (** The tuples collectMatchBitmap (rumget.c:296-483) takes. *)
  Fixpoint collectMatch (q : qreq) (l : list etup) : list etup :=
    match l with
    | [] => []
    | t :: r =>
        let k := t_key t in
        if negb (k_att k =? rq_att q)%N then []
        else match rq_partial q with
             | Some f =>
                 match k_cat k with
                 | CatNormKey => let c := f (k_val k) in
                                 if 0 <? c then [] else if c <? 0 then collectMatch q r else t :: collectMatch q r
                 | _ => []
                 end
             | None =>
                 match rq_all q, k_cat k with
                 | true, CatNullItem => []
                 | _, _ => t :: collectMatch q r
                 end
             end
    end.
  (** Their rows: posting lists, and posting trees read by scanPostingTree (rumget.c:220-277). *)
  Fixpoint rowsOf (ix : istate) (l : list etup) : option (list row) :=
    match l with
    | [] => Some []
    | t :: r => match tupleRows ix t, rowsOf ix r with Some a, Some b => Some (a ++ b) | _, _ => None end
    end.
  Definition isMany (q : qreq) : bool :=
    match rq_partial q with Some _ => true | None => match rq_cat q with CatEmptyQuery => true | _ => false end end.
  Definition altAt (att : N) : bool := useAlt && (att =? addTo)%N.
  (** startScanEntry (rumget.c:544-715): what the index has for a query key.  [None]: a broken index. *)
  Definition findEntry (ix : istate) (q : qreq) : option (found datum * (row -> nat)) :=
    let k := mkKey (rq_att q) (rq_key q) (rq_cat q) in
    let alt := altAt (rq_att q) in
    if isMany q then
      match rq_partial q, rq_cat q with
      | Some _, CatNormKey | None, _ =>
          match tuplesFrom ix k with
          | None => None
          | Some l => match rowsOf ix (collectMatch q l) with
                      | None => None
                      | Some rows => Some (FMany (tuplesort (comparetup_rumitem alt) rows), fun _ => O)
                      end
          end
      | Some _, _ => Some (FMany [], fun _ => O)
      end
    else
      let x := mkTup k (PList []) in
      match eFindLeaf compareFn (i_entry ix) x with
      | None => None
      | Some (b, _) =>
          match get (i_entry ix) b with
          | None => None
          | Some pg =>
              let '(found, off) := et_find compareFn (p_items pg) x in
              if found then
                match nth_error (p_items pg) (off - 1) with
                | None => None
                | Some t =>
                    match t_data t with
                    | PList rows => Some (FList rows, fun _ => O)
                    | PTree n => match nth_error (i_trees ix) n with Some st => treeFound (junk q) alt st | None => None end
                    end
                end
              else Some (FNone, fun _ => O)
          end
      end.

  (** ** The scan *)
  Variable joinFn : joins datum.
  (** Columns with preConsistentFn; predictNumberResult of a query key; order left by qsort_arg in
      so->sortedEntries (startScan, rumget.c:906-923); TID bitmap parameters (Scan.v). *)
  Variables (canPre : N -> bool) (estimate : istate -> qreq -> N) (sortEnts : list (entry datum) -> list nat).
  Variables (visit : tbm -> list N) (iterate : list (N * pentry) -> list (N * pentry)) (tbmMax : N).

  Fixpoint findEntries (ix : istate) (qs : list qreq) : option (list (qentry (A := datum))) :=
    match qs with
    | [] => Some []
    | q :: r =>
        match findEntry ix q, findEntries ix r with
        | Some (f, refind), Some es => Some (mkQe (rq_att q) f (estimate ix q) refind :: es)
        | _, _ => None
        end
    end.
  (** The choice of the scan (startScan, rumget.c:853-890). *)
  Definition isFast (ks : list kspec) : bool :=
    forallb (fun k => canPre (kp_att k)) ks &&
    forallb (fun q => match rq_partial q with Some _ => false | None => true end) (flat_map kp_reqs ks).
  (** rumgetbitmap (rumget.c:2337-2377), or all calls of rumgettuple without ordering: row addresses and
      recheck flags. *)
  Definition queryScan (ix : istate) (conds orders : list clause) : option (list (iptr * bool)) :=
    match newScanKeys conds orders with
    | None => Some []
    | Some ks =>
        match findEntries ix (flat_map kp_reqs ks) with
        | None => None
        | Some es =>
            let ents := map start es in
            let keys := numbered 0 ks in
            Some (if isFast ks
                  then map (fun o => (ip (fst (fst o)), snd (fst o)))
                         (scanFast useAlt addTo cmpA joinFn ents keys (sortEnts (startEntries useAlt addTo cmpA joinFn ents)))
                  else map (fun o => (ip (fst (fst o)), snd (fst o)))
                         (scanRegular useAlt addTo cmpA joinFn visit iterate tbmMax ents keys))
        end
    end.
End Query.
