(** One query key of a scan (RumScanEntry): the rows of a posting list held in memory, of a posting
    tree read leaf by leaf, or of many index keys collected and sorted beforehand.  Model file:
    no proofs.

    Simplifications: forward direction; the index does not change while the scan runs (so a root
    leaf never becomes internal); RumFuzzySearchLimit is 0 (its default); the full-index scan with
    additional information (entry->stack) is not modelled.  An ItemPointer is valid when its offset
    number is not 0 (ItemPointerIsValid). *)
From Verif Require Import Base LeafPage.
From Coq Require Import NArith ZArith Bool Arith List.
Import ListNotations.
Local Open Scope Z_scope.

(** ItemPointerIsValid, ItemPointerSetInvalid. *)
Definition ip_valid (p : iptr) : bool := negb (off p =? 0)%N.
Definition ip_invalid : iptr := mkIp (2 ^ 32 - 1) 0.

(** A leaf page of a posting tree: its items and right bound. *)
Record leaf (A : Type) := mkLeaf { lf_items : list (item A); lf_bound : item A }.
Arguments mkLeaf {A}. Arguments lf_items {A}. Arguments lf_bound {A}.

(** RumScanEntry->collectRumItem: RumItemPointerSetMin, an item, or RumItemPointerSetMax. *)
Inductive collected (A : Type) := CMin | CItem (x : item A) | CMax.
Arguments CMin {A}. Arguments CItem {A}. Arguments CMax {A}.

(** Where the rows come from: [Mem] - entry->list only (buffer = InvalidBuffer); [Tree chain pos] -
    the leaf level of a posting tree, entry->buffer being its page number [pos]; [Coll rest c] -
    entry->matchSortstate holding [rest], and entry->collectRumItem. *)
Inductive esrc (A : Type) :=
| Mem
| Tree (chain : list (leaf A)) (pos : nat)
| Coll (rest : list (item A)) (c : collected A).
Arguments Mem {A}. Arguments Tree {A}. Arguments Coll {A}.

(** RumScanEntryData (rum.h:665-718).  [e_refind x] is the leaf rumReFindLeafPage
    (rumbtree.c:74-112) goes to for the row x. *)
Record entry (A : Type) := mkEntry {
  e_att : N; e_src : esrc A; e_list : list (item A); e_off : Z; e_cur : item A; e_fin : bool;
  e_predict : N; e_refind : item A -> nat }.
Arguments mkEntry {A}. Arguments e_att {A}. Arguments e_src {A}. Arguments e_list {A}. Arguments e_off {A}.
Arguments e_cur {A}. Arguments e_fin {A}. Arguments e_predict {A}. Arguments e_refind {A}.

(** joinAddInfoFn of each column, when its operator class has one (RumState->canJoinAddInfo,
    joinAddInfoFn: rumutil.c:410-425). *)
Definition joins (A : Type) : Type := N -> option (A -> A -> A).

Section Entry.
  Context {A : Type}.
  (** rumstate->useAlternativeOrder, attrnAddToColumn, comparison of the attached column. *)
  Variables (useAlt : bool) (addTo : N) (cmpA : A -> A -> Z).
  Variable joinFn : joins A.
  Notation item := (item A).
  Notation entry := (entry A).

  Definition altOf (att : N) : bool := useAlt && (att =? addTo)%N.
  (** compareRumItem(rumstate, attno, ...). *)
  Definition cmpAt (att : N) : item -> item -> Z := compareRumItem (altOf att) cmpA.

  Definition set_src (e : entry) (s : esrc A) : entry :=
    mkEntry (e_att e) s (e_list e) (e_off e) (e_cur e) (e_fin e) (e_predict e) (e_refind e).
  Definition set_list (e : entry) (l : list item) (o : Z) : entry :=
    mkEntry (e_att e) (e_src e) l o (e_cur e) (e_fin e) (e_predict e) (e_refind e).
  Definition set_cur (e : entry) (c : item) (o : Z) : entry :=
    mkEntry (e_att e) (e_src e) (e_list e) o c (e_fin e) (e_predict e) (e_refind e).
  Definition set_fin (e : entry) : entry :=
    mkEntry (e_att e) (e_src e) (e_list e) (e_off e) (e_cur e) true (e_predict e) (e_refind e).
  (** ItemPointerSetInvalid(&entry->curItem.iptr); entry->isFinished = true. *)
  Definition finish (e : entry) : entry :=
    mkEntry (e_att e) (e_src e) (e_list e) (e_off e) (mkItem ip_invalid (add (e_cur e))) true (e_predict e) (e_refind e).

  (** entry->list[entry->offset] when the offset is inside the list. *)
  Definition at_off (l : list item) (o : Z) : option item :=
    if (0 <=? o) && (o <? Z.of_nat (length l)) then nth_error l (Z.to_nat o) else None.

  (** The in-page index loop of scanPage (rumget.c:1822-1856). *)
  Fixpoint scan_narrow (cmp : item -> item -> Z) (ix : list (idx (T:=item))) (x : item) (equalOk : bool) (first maxoff : nat) : nat * nat :=
    match ix with
    | [] => (first, maxoff)
    | e :: r =>
        let c := cmp (i_key e) x in
        if (c <? 0) || ((c <=? 0) && negb equalOk) then scan_narrow cmp r x equalOk (i_off e) maxoff
        else (first, (i_off e - 1)%nat)
    end.
  (** bound and found_eq (rumget.c:1867-1886): the first loaded item not below [x]. *)
  Fixpoint scan_bound (cmp : item -> item -> Z) (l : list item) (x : item) (i : nat) : option (nat * bool) :=
    match l with
    | [] => None
    | y :: r => let c := cmp x y in if c <=? 0 then Some (i, c =? 0) else scan_bound cmp r x (S i)
    end.
  (** scanPage (rumget.c:1797-1915), forward.  The result tells whether an item was found. *)
  Definition scanPage (pg : leaf A) (rightmost : bool) (e : entry) (x : item) (equalOk : bool) : entry * bool :=
    let cmp := cmpAt (e_att e) in
    let cb := cmp (lf_bound pg) x in
    if negb rightmost && ((cb <? 0) || ((cb <=? 0) && negb equalOk)) then (e, false)
    else
      let '(first, maxoff) := scan_narrow cmp (updateItemIndexes item_min (lf_items pg)) x equalOk 1 (length (lf_items pg)) in
      let l := firstn (maxoff + 1 - first) (skipn (first - 1) (lf_items pg)) in
      match scan_bound cmp l x 0 with
      | None => (set_list e l (e_off e), false)
      | Some (b, eq) =>
          let o := if eq && negb equalOk then Z.of_nat b + 1 else Z.of_nat b in
          match at_off l o with
          | None => (set_list e l o, false)
          | Some y => (set_cur (set_list e l o) y (o + 1), true)
          end
      end.

  Definition is_last (chain : list (leaf A)) (pos : nat) : bool := (S pos =? length chain)%nat.

  (** The searchBorder loop of entryGetNextItem (rumget.c:1002-1028): offset of the first loaded
      item [y] with curItem > y (sic), or -1. *)
  Fixpoint border (cmp : item -> item -> Z) (cur : item) (l : list item) (i : Z) : Z :=
    match l with
    | [] => -1
    | y :: r => if 0 <? cmp cur y then i else border cmp cur r (i + 1)
    end.
  (** entryGetNextItem (rumget.c:918-1029), forward.  Out of fuel: unchanged.  curItem is invalid only
      when it was read from the uninitialised list[0] (see startScanEntry in Scan.v), which an empty page
      leaves as it is; then the item read next is the same. *)
  Fixpoint entryGetNextItem (fuel : nat) (chain : list (leaf A)) (pos : nat) (e : entry) : entry :=
    match fuel with
    | O => e
    | S f =>
        match at_off (e_list e) (e_off e) with
        | Some y => set_cur e y (e_off e + 1)
        | None =>
            match nth_error chain pos with
            | None => e
            | Some pg =>
                let '(e1, found) := scanPage pg (is_last chain pos) e (e_cur e) false in
                if found then e1
                else if is_last chain pos then finish e1
                else
                  match nth_error chain (S pos) with
                  | None => e1
                  | Some pg' =>
                      let l := lf_items pg' in
                      let e2 := set_src e1 (Tree chain (S pos)) in
                      if ip_valid (ip (e_cur e)) then
                        let o := border (cmpAt (e_att e)) (e_cur e) l 0 in
                        if o <? 0 then entryGetNextItem f chain (S pos) (set_list e2 l o)
                        else set_cur (set_list e2 l o) (nth (Z.to_nat o) l item_min) (o + 1)
                      else set_cur (set_list e2 l 0) (nth 0 l (e_cur e)) 1
                  end
            end
        end
    end.

  (** Joining two additional informations of one row (rumget.c:1236-1270). *)
  Definition joinAdd (join : option (A -> A -> A)) (a b : option A) : option A :=
    match a, b with
    | Some x, Some y => match join with Some f => Some (f x y) | None => Some y end
    | Some x, None => Some x
    | None, _ => b
    end.
  (** The inner for(;;) over the sorted rows (rumget.c:1214-1299).  [c] is collected ([None]: its
      iptr is still the minimum).  Result: curItem ([None]: minimum), collectRumItem, rows left. *)
  Fixpoint collect_loop (join : option (A -> A -> A)) (rest : list item) (c : option item) : option item * collected A * list item :=
    match rest with
    | [] => (c, CMax, [])
    | x :: r =>
        match c with
        | None => collect_loop join r (Some (mkItem (ip x) (add x)))
        | Some y =>
            if rumCompareItemPointers (ip y) (ip x) =? 0
            then collect_loop join r (Some (mkItem (ip x) (joinAdd join (add y) (add x))))
            else (Some y, CItem x, r)
        end
    end.

  (** entryGetItem (rumget.c:1197-1369). *)
  Definition entryGetItem (e : entry) : entry :=
    match e_src e with
    | Coll rest CMax => set_fin e
    | Coll rest c =>
        match collect_loop (joinFn (e_att e)) rest (match c with CItem x => Some x | _ => None end) with
        | (Some y, c', r) => set_cur (set_src e (Coll r c')) y (e_off e)
        | (None, c', r) => set_fin (set_cur (set_src e (Coll r c')) (mkItem ip_min None) (e_off e))
        end
    | Mem =>
        match at_off (e_list e) (e_off e) with
        | Some y => set_cur e y (e_off e + 1)
        | None => finish e
        end
    | Tree chain pos => entryGetNextItem (2 * (length chain - pos) + 2) chain pos e
    end.

  (** The while loop of entryFindItem over the loaded items (rumget.c:1945-1957): from offset [o],
      where [l] is the list from there on. *)
  Fixpoint find_from (cmp : item -> item -> Z) (l : list item) (x : item) (o : Z) : option (item * Z) :=
    match l with
    | [] => None
    | y :: r => if 0 <=? cmp y x then Some (y, o) else find_from cmp r x (o + 1)
    end.
  (** The last loop of entryFindItem (rumget.c:1992-2012): page after page. *)
  Fixpoint find_right (fuel : nat) (chain : list (leaf A)) (pos : nat) (e : entry) (x : item) : entry :=
    match fuel with
    | O => e
    | S f =>
        match nth_error chain (S pos) with
        | None => finish e
        | Some pg =>
            let '(e1, found) := scanPage pg (is_last chain (S pos)) (set_src e (Tree chain (S pos))) x true in
            if found then e1 else find_right f chain (S pos) e1 x
        end
    end.
  (** entryFindItem (rumget.c:1924-2022), forward. *)
  Definition entryFindItem (e : entry) (x : item) : entry :=
    let cmp := cmpAt (e_att e) in
    if (length (e_list e) =? 0)%nat then set_fin e
    else
      let inlist :=
        if 0 <=? cmp (last (e_list e) item_min) x then
          if (0 <=? cmp (e_cur e) x) &&
             match at_off (e_list e) (e_off e) with
             | Some y => rumCompareItemPointers (ip (e_cur e)) (ip y) =? 0
             | None => false
             end
          then Some e
          else match (if 0 <=? e_off e then find_from cmp (skipn (Z.to_nat (e_off e)) (e_list e)) x (e_off e) else None) with
               | Some (y, o) => Some (set_cur e y (o + 1))
               | None => None
               end
        else None in
      match inlist with
      | Some e' => e'
      | None =>
          match e_src e with
          | Tree chain pos =>
              match nth_error chain pos with
              | None => e
              | Some pg =>
                  let '(e1, found) := scanPage pg (is_last chain pos) e x true in
                  if found then e1
                  else
                    let p := e_refind e x in
                    match nth_error chain p with
                    | None => e1
                    | Some pg' =>
                        let '(e2, found') := scanPage pg' (is_last chain p) (set_src e1 (Tree chain p)) x true in
                        if found' then e2 else find_right (length chain) chain p e2 x
                    end
              end
          | _ => set_fin e
          end
      end.
End Entry.
