(** The entry tree (keys) and the whole index: the page functions of rumentrypage.c plugged into
    the tree code of BTree.v, and rumEntryInsert with its posting lists and posting trees
    (ruminsert.c).  Model file: no proofs.

    Simplifications: the entry tree and every posting tree have their own block numbering (the
    root is block 0); a posting list is kept as the list of its rows (its byte form is the
    subject of Codec.v); buildStats counters are not modelled. *)
From Verif Require Import Base Codec LeafPage LeafCodec Entries BTree PostingTree.
From Coq Require Import NArith ZArith Bool Arith List.
Import ListNotations.
Local Open Scope N_scope.

(** MAXALIGN on 64-bit platforms. *)
Definition MAXALIGN (n : N) : N := (n + 7) / 8 * 8.
(** RumMaxItemSize (rum.h:252-256): a third of a page, line pointers and alignment taken off. *)
Definition RumMaxItemSize : N := 2712.
(** Bytes for line pointers and tuples on an entry page: BLCKSZ - SizeOfPageHeaderData -
    MAXALIGN(sizeof(RumPageOpaqueData)) (rum.h:46-58). *)
Definition entryPageSpace : N := 8152.
(** sizeof(ItemIdData) *)
Definition ItemIdSize : N := 4.

(** What an entry tuple carries besides its key: an inline posting list, or the root of a
    posting tree (RumIsPostingTree, RumGetPostingTree: rum.h:235-239). *)
Inductive payload := PList (rows : list row) | PTree (tree : nat).
Record etup (K : Type) := mkTup { t_key : ekey K; t_data : payload }.
Arguments mkTup {K}. Arguments t_key {K}. Arguments t_data {K}.

Definition delete_at {A} (n : nat) (l : list A) : list A := (firstn n l ++ skipn (S n) l)%list.
Definition insert_at {A} (n : nat) (x : A) (l : list A) : list A := (firstn n l ++ x :: skipn n l)%list.

(** Binary search of entryLocateEntry (rumentrypage.c:158-221): the last downlink counts as
    +infinity only on a rightmost page. *)
Fixpoint elocate_loop {T} (cmp : T -> T -> Z) (fuel : nat) (rm : bool) (d : list (T * nat)) (x : T) (low high : nat) : nat :=
  match fuel with
  | O => high
  | S f =>
      if (low <? high)%nat then
        let mid := (low + (high - low) / 2)%nat in
        let result :=
          if (mid =? length d)%nat && rm then (-1)%Z
          else match nth_error d (mid - 1) with
               | Some (k, _) => cmp x k
               | None => (-1)%Z
               end in
        if (result =? 0)%Z then mid
        else if (0 <? result)%Z then elocate_loop cmp f rm d x (mid + 1) high
        else elocate_loop cmp f rm d x low mid
      else high
  end.
Definition entryLocateEntry {T} (cmp : T -> T -> Z) (rm : bool) (d : list (T * nat)) (x : T) : nat :=
  elocate_loop cmp (S (length d)) rm d x 1 (length d + 1).

(** Binary search of entryLocateLeafEntry (rumentrypage.c:228-282). *)
Fixpoint eleaf_loop {T} (cmp : T -> T -> Z) (fuel : nat) (items : list T) (x : T) (low high : nat) : bool * nat :=
  match fuel with
  | O => (false, high)
  | S f =>
      if (low <? high)%nat then
        let mid := (low + (high - low) / 2)%nat in
        match nth_error items (mid - 1) with
        | Some k =>
            let result := cmp x k in
            if (result =? 0)%Z then (true, mid)
            else if (0 <? result)%Z then eleaf_loop cmp f items x (mid + 1) high
            else eleaf_loop cmp f items x low mid
        | None => (false, high)
        end
      else (false, high)
  end.
Definition entryLocateLeafEntry {T} (cmp : T -> T -> Z) (items : list T) (x : T) : bool * nat :=
  if (length items =? 0)%nat then (false, 1%nat)
  else eleaf_loop cmp (S (length items)) items x 1 (length items + 1).

(** Sum of tuple sizes with their line pointers. *)
Definition usedSpace {T} (size : T -> N) (l : list T) : N := fold_right (fun t s => size t + ItemIdSize + s) 0 l.
(** PageGetFreeSpace: room for one more line pointer taken off. *)
Definition PageGetFreeSpace (used : N) : N :=
  if entryPageSpace - used <? ItemIdSize then 0 else entryPageSpace - used - ItemIdSize.
(** Second loop of entrySplitPage (rumentrypage.c:467-499): number of tuples that go left. *)
Fixpoint sepCount {T} (size : T -> N) (half lsize : N) (l : list T) : nat :=
  match l with
  | [] => O
  | t :: r => if half <? lsize then O else S (sepCount size half (lsize + size t + ItemIdSize) r)
  end.
Definition entrySep {T} (size : T -> N) (l : list T) : nat := sepCount size (usedSpace size l / 2) 0 l.

Inductive outcome := Done | LostPath | TooBig.

Section Index.
  Context {K : Type}.
  (** Comparison function, attached-value column and attach order of each column; comparison of
      attached values; size of the key-only tuple index_form_tuple makes, before MAXALIGN. *)
  Variable compareFn : N -> K -> K -> Z.
  Variable altOf : N -> bool.
  Variable attrOf : N -> attr.
  Variable cmpA : datum -> datum -> Z.
  Variable rawSize : ekey K -> N.
  Variable dflt : K.
  Notation etup := (etup K).

  Definition ecmp (x y : etup) : Z := rumCompareAttEntries compareFn (t_key x) (t_key y).
  Definition ksize (k : ekey K) : N := MAXALIGN (rawSize k).
  (** The category byte (ruminsert.c:183-187). *)
  Definition catByte (k : ekey K) : N := match k_cat k with CatNormKey => 0 | _ => 1 end.
  Definition altK (k : ekey K) : bool := altOf (k_att k).
  Definition attrK (k : ekey K) : attr := attrOf (k_att k).

  (** Size of a leaf tuple (ruminsert.c:156-188). *)
  Definition tupsize (t : etup) : N :=
    match t_data t with
    | PList rows => MAXALIGN (postingListSize (altK (t_key t)) (attrK (t_key t)) rows ip_min (ksize (t_key t)) + catByte (t_key t))
    | PTree _ => MAXALIGN (ksize (t_key t) + catByte (t_key t))
    end.
  (** Size of the tuple RumFormInteriorTuple (rumentrypage.c:67-105) makes of a leaf tuple.  In the
      model a downlink keeps the whole tuple it was made from; only its key is ever looked at. *)
  Definition isize (t : etup) : N :=
    match t_data t with
    | PList _ => ksize (t_key t)
    | PTree _ => MAXALIGN (ksize (t_key t) + catByte (t_key t))
    end.
  (** RumFormTuple (ruminsert.c:118-247) without errorTooBig: [None] for a tuple too big. *)
  Definition RumFormTuple (k : ekey K) (p : payload) : option etup :=
    let t := mkTup k p in
    if RumMaxItemSize <? tupsize t then None else Some t.

  (** getRightMostTuple (rumentrypage.c:111-119), as looked at by entryIsMoveRight (121-142). *)
  Definition et_rbound (pg : page etup) : etup :=
    if p_leaf pg then last (p_items pg) (p_bound pg) else fst (last (p_downs pg) (p_bound pg, O)).
  (** entryIsEnoughSpace (rumentrypage.c:337-357). *)
  Definition et_ienough (d : list (etup * nat)) (k : etup) : bool :=
    isize k + ItemIdSize <=? PageGetFreeSpace (usedSpace (fun kc => isize (fst kc)) d).
  Definition et_find : list etup -> etup -> bool * nat := entryLocateLeafEntry ecmp.
  (** The same on a leaf; isDelete is set exactly when rumEntryInsert found the key there
      (ruminsert.c:465). *)
  Definition et_enough (items : list etup) (x : etup) : bool :=
    let '(found, off) := et_find items x in
    let itupsz :=
      if found then match nth_error items (off - 1) with Some t => tupsize t + ItemIdSize | None => 0 end else 0 in
    tupsize x + ItemIdSize <=? PageGetFreeSpace (usedSpace tupsize items) + itupsz.
  (** entryPreparePage (rumentrypage.c:364-389) and PageAddItem at [off]. *)
  Definition et_new (items : list etup) (x : etup) (found : bool) (off : nat) : list etup :=
    insert_at (off - 1) x (if found then delete_at (off - 1) items else items).
  (** entryPlaceToPage (rumentrypage.c:394-411); [None]: PageAddItem fails. *)
  Definition et_place (rm : bool) (bound : etup) (items batch : list etup) : option (list etup * list etup) :=
    match batch with
    | [] => None
    | x :: rest =>
        let '(found, off) := et_find items x in
        let items' := et_new items x found off in
        if usedSpace tupsize items' <=? entryPageSpace then Some (items', rest) else None
    end.
  (** entrySplitPage (rumentrypage.c:419-513) on a leaf. *)
  Definition et_split (items batch : list etup) (off : nat) : option (list etup * list etup * list etup) :=
    match batch with
    | [] => None
    | x :: rest =>
        let all := et_new items x (fst (et_find items x)) off in
        let sep := entrySep tupsize all in
        let l := firstn sep all in
        let r := skipn sep all in
        if (usedSpace tupsize l <=? entryPageSpace) && (usedSpace tupsize r <=? entryPageSpace)
        then Some (l, r, rest) else None
    end.
  (** entrySplitPage on an internal page: where to cut. *)
  Definition et_isep (rm : bool) (d : list (etup * nat)) : nat := entrySep (fun kc => isize (fst kc)) d.
  (** rumEntryFillRoot (rumentrypage.c:534-557): the last tuple of the right half. *)
  Definition et_rkey (bound : etup) (items : list etup) (d : list (etup * nat)) : etup :=
    match items with [] => fst (last d (bound, O)) | _ => last items bound end.
  Definition et_locate : bool -> list (etup * nat) -> etup -> nat := entryLocateEntry ecmp.
  (** Content of the unused right bound of an entry page. *)
  Definition et_null : etup := mkTup (mkKey 0 dflt CatNormKey) (PList []).

  (** The index: its entry tree and its posting trees. *)
  Record istate := mkIx { i_entry : list (page etup); i_trees : list (list (page row)) }.
  Definition set_tree (ix : istate) (n : nat) (t : list (page row)) : istate := mkIx (i_entry ix) (upd (i_trees ix) n t).
  Definition set_entry (ix : istate) (e : list (page etup)) : istate := mkIx e (i_trees ix).
  (** rumInitializeRootPage of a new index (rumbuild, ruminsert.c:636-645): one empty leaf. *)
  Definition emptyIndex : istate := mkIx [mkPage true [] [] et_null None None false] [].

  (** rumInsertItemPointers into posting tree [n]. *)
  Definition insertPosting (build : bool) (ix : istate) (k : ekey K) (n : nat) (items : list row)
    : option (list istate * bool) :=
    match nth_error (i_trees ix) n with
    | None => None
    | Some t =>
        match ptInsert (altK k) (attrK k) cmpA build t items with
        | None => None
        | Some (tr, lost) => Some (map (set_tree ix n) tr, lost)
        end
    end.
  (** createPostingTree (ruminsert.c:52-100) of [first], one logged change, then
      rumInsertItemPointers of [rest]. *)
  Definition newPosting (build : bool) (ix : istate) (k : ekey K) (first rest : list row)
    : option (list istate * bool) :=
    let ix1 := mkIx (i_entry ix) (i_trees ix ++ [createPostingTree first]) in
    match insertPosting build ix1 k (length (i_trees ix)) rest with
    | None => None
    | Some (tr, lost) => Some (ix1 :: tr, lost)
    end.

  (** addItemPointersToLeafTuple (ruminsert.c:256-322).  Result: logged changes, then the tuple or
      an error. *)
  Definition addItemPointersToLeafTuple (build : bool) (ix : istate) (k : ekey K) (old items : list row)
    : option (list istate * (etup + outcome)) :=
    let merged := rumMergeRumItems (compareRumItem (altK k) cmpA) items old in
    match RumFormTuple k (PList merged) with
    | Some t => Some ([], inl t)
    | None =>
        match newPosting build ix k old items with
        | None => None
        | Some (tr, true) => Some (tr, inr LostPath)
        | Some (tr, false) =>
            match RumFormTuple k (PTree (length (i_trees ix))) with
            | Some t => Some (tr, inl t)
            | None => Some (tr, inr TooBig)
            end
        end
    end.

  (** The do-while of buildFreshLeafTuple (ruminsert.c:356-363) from item number [cnt]. *)
  Fixpoint fresh_loop (alt : bool) (a : attr) (items : list row) (prev : iptr) (size : N) (cnt : nat) : N * nat :=
    match items with
    | [] => (size, cnt)
    | it :: rest =>
        let size' := rumCheckPlaceToDataPageLeaf alt a it prev size in
        if size' <? RumDataPageSize then fresh_loop alt a rest (ip it) size' (S cnt) else (size', S cnt)
    end.
  (** itemsCount (ruminsert.c:353-366). *)
  Definition freshCount (alt : bool) (a : attr) (items : list row) : nat :=
    let '(size, cnt) := fresh_loop alt a items ip_min 0 0 in
    if RumDataPageSize <=? size then (cnt - 1)%nat else cnt.
  (** buildFreshLeafTuple (ruminsert.c:335-409). *)
  Definition buildFreshLeafTuple (build : bool) (ix : istate) (k : ekey K) (items : list row)
    : option (list istate * (etup + outcome)) :=
    match RumFormTuple k (PList items) with
    | Some t => Some ([], inl t)
    | None =>
        let n := freshCount (altK k) (attrK k) items in
        match RumFormTuple k (PTree (length (i_trees ix))) with
        | None => Some ([], inr TooBig)
        | Some t =>
            match newPosting build ix k (firstn n items) (skipn n items) with
            | None => None
            | Some (tr, true) => Some (tr, inr LostPath)
            | Some (tr, false) => Some (tr, inl t)
            end
        end
    end.

  Definition eFindLeaf (st : list (page etup)) (x : etup) := findLeaf ecmp et_rbound et_locate (S (length st)) st 0 0 [] x.
  Definition eInsertValue (st : list (page etup)) (b : nat) (stack : list (nat * nat)) (t : etup) :=
    insertValue et_ienough et_null et_find et_enough et_place et_split et_isep et_rkey st 0 b stack [t].

  (** The end of rumEntryInsert (ruminsert.c:474-480): the tuple goes into the entry tree. *)
  Definition insertTuple (ix : istate) (b : nat) (stack : list (nat * nat)) (r : list istate * (etup + outcome))
    : option (list istate * outcome) :=
    match r with
    | (tr, inr e) => Some (tr, e)
    | (tr, inl t) =>
        let ix1 := last tr ix in
        match eInsertValue (i_entry ix1) b stack t with
        | None => None
        | Some (es, _, lost) => Some ((tr ++ map (set_entry ix1) es)%list, if lost then LostPath else Done)
        end
    end.
  (** rumEntryInsert (ruminsert.c:418-481).  Result: the index after each logged change, and how
      the call ended. *)
  Definition rumEntryInsert (build : bool) (ix : istate) (k : ekey K) (items : list row) : option (list istate * outcome) :=
    let x := mkTup k (PList items) in
    match eFindLeaf (i_entry ix) x with
    | None => None
    | Some (b, stack) =>
        match get (i_entry ix) b with
        | None => None
        | Some pg =>
            let '(found, off) := et_find (p_items pg) x in
            if found then
              match nth_error (p_items pg) (off - 1) with
              | None => None
              | Some itup =>
                  match t_data itup with
                  | PTree n =>
                      match insertPosting build ix k n items with
                      | None => None
                      | Some (tr, lost) => Some (tr, if lost then LostPath else Done)
                      end
                  | PList old =>
                      match addItemPointersToLeafTuple build ix (t_key itup) old items with
                      | None => None
                      | Some r => insertTuple ix b stack r
                      end
                  end
              end
            else
              match buildFreshLeafTuple build ix k items with
              | None => None
              | Some r => insertTuple ix b stack r
              end
        end
    end.

  (** The rows stored with a tuple: rumReadTuple, or a scan of the posting tree. *)
  Definition tupleRows (ix : istate) (t : etup) : option (list row) :=
    match t_data t with
    | PList rows => Some rows
    | PTree n => match nth_error (i_trees ix) n with Some t => ptScan t | None => None end
    end.
  (** Key search (startScanEntry, rumget.c: rumFindLeafPage, findItem): [Some None] when the key is
      not there, else its rows. *)
  Definition keyRows (ix : istate) (k : ekey K) : option (option (list row)) :=
    let x := mkTup k (PList []) in
    match eFindLeaf (i_entry ix) x with
    | None => None
    | Some (b, _) =>
        match get (i_entry ix) b with
        | None => None
        | Some pg =>
            let '(found, off) := et_find (p_items pg) x in
            if found then
              match nth_error (p_items pg) (off - 1) with
              | None => None
              | Some t => match tupleRows ix t with Some r => Some (Some r) | None => None end
              end
            else Some None
        end
    end.
  (** All tuples, walking the leaf level from the left (full scan). *)
  Definition allTuples (ix : istate) : option (list etup) := scan (i_entry ix) 0.
End Index.
