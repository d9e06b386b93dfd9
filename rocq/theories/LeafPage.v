(** Posting-tree leaf pages: in-page index, search, insertion, split.  Model file.
    A leaf page's data area is modelled by the list of its items (the bytes are the
    encoding of that list, Codec.v: every writer goes through rumPlaceToDataPageLeaf and
    every reader through rumDataPageLeafRead).  The in-page index and the freespace field are
    functions of the items, because every function that changes a leaf page ends with
    updateItemIndexes (rumdatapage.c:1009, 1219-1220; rumvacuum.c:266; ruminsert.c:88). *)
From Coq Require Import List NArith ZArith Bool Arith.
Import ListNotations.
Local Open Scope Z_scope.

Section Leaf.
  Context {T : Type}.
  (** compareRumItem for the index and column at hand. *)
  Variable cmp : T -> T -> Z.
  (** RumItemSetMin. *)
  Variable tmin : T.
  (** rumCheckPlaceToDataPageLeaf: new size after adding an item, given its predecessor. *)
  Variable sz : T -> T -> N -> N.
  (** RumDataPageSize. *)
  Variable psz : N.

  (** RumDataLeafItemIndex (rum.h:291-297): the key of the preceding item and the offset of
      the item it points at (pageOffset is that item's byte position). *)
  Record idx := mkIdx { i_key : T; i_off : nat }.

  Definition RumDataLeafIndexCount : nat := 32.

  (** The loop of updateItemIndexes (rumdatapage.c:1350-1368). *)
  Fixpoint build_idx (i j maxoff : nat) (prev : T) (l : list T) : list idx :=
    match l with
    | [] => []
    | x :: r =>
        if ((j + 1) * maxoff <? i * (RumDataLeafIndexCount + 1))%nat
        then mkIdx prev i :: build_idx (S i) (S j) maxoff x r
        else build_idx (S i) j maxoff x r
    end.
  Definition updateItemIndexes (l : list T) : list idx := build_idx 1 0 (length l) tmin l.

  (** Index part of findInLeafPage (rumdatapage.c:549-583): narrows [first, maxoff]. *)
  Fixpoint narrow (ix : list idx) (key : T) (first maxoff : nat) : nat * nat :=
    match ix with
    | [] => (first, maxoff)
    | e :: r =>
        if cmp (i_key e) key <? 0 then narrow r key (i_off e) maxoff
        else (first, (i_off e - 1)%nat)
    end.

  (** Linear part of findInLeafPage (rumdatapage.c:586-612) over the items of the range,
      the first of which has offset [i]; [full] is the page's maxoff. *)
  Fixpoint lin_find (l : list T) (i full : nat) (key : T) : bool * nat :=
    match l with
    | [] => (false, S full)
    | x :: r =>
        let c := cmp key x in
        if c =? 0 then (true, i)
        else if c <? 0 then (false, i)
        else lin_find r (S i) full key
    end.

  (** findInLeafPage (rumdatapage.c:528-613): found flag and 1-based offset. *)
  Definition findInLeafPage (items : list T) (key : T) : bool * nat :=
    let '(first, maxoff) := narrow (updateItemIndexes items) key 1 (length items) in
    lin_find (firstn (maxoff + 1 - first) (skipn (first - 1) items)) first (length items) key.

  (** Byte position after a run of items starting at [pos] after [prev]. *)
  Fixpoint run_size (prev : T) (l : list T) (pos : N) : N :=
    match l with
    | [] => pos
    | x :: r => run_size x r (sz x prev pos)
    end.

  (** freespace field set by updateItemIndexes (rumdatapage.c:1375). *)
  Definition leafFree (items : list T) : N := (psz - run_size tmin items 0)%N.

  (** The while(42) loop of dataPlaceToPage (rumdatapage.c:899-1003).
      olds: items of the page from offset [off] on; news: batch from curitem on.
      Result: items written, batch left over, end position.  [None]: fuel exhausted. *)
  Fixpoint place_loop (fuel : nat) (rightmost : bool) (bound : T) (olds news : list T)
    (prev : T) (pos free : N) (stop : bool) : option (list T * list T * N) :=
    match fuel with
    | O => None
    | S f =>
        let copy o olds' news' :=
          match place_loop f rightmost bound olds' news' o (sz o prev pos) free stop with
          | Some (w, rest, e) => Some (o :: w, rest, e)
          | None => None
          end in
        let insert n news' :=
          let al := N.modulo pos 8 in
          let nsz := (sz n prev al - al)%N in
          if (nsz <=? free)%N then
            match place_loop f rightmost bound olds news' n (sz n prev pos) (free - nsz)%N stop with
            | Some (w, rest, e) => Some (n :: w, rest, e)
            | None => None
            end
          else place_loop f rightmost bound olds news prev pos free true in
        match olds, news with
        | o :: olds', n :: news' =>
            let c := if stop then -1 else cmp o n in
            if c <=? 0 then copy o olds' (if c =? 0 then news' else news)
            else insert n news'
        | [], n :: news' =>
            if stop then Some ([], news, pos)
            else if rightmost then insert n news'
            else if 0 <=? cmp bound n then insert n news'
            else Some ([], news, pos)
        | o :: olds', [] => copy o olds' []
        | [], [] => Some ([], [], pos)
        end
    end.

  (** dataPlaceToPage, leaf branch (rumdatapage.c:842-1015): new items, batch left over,
      bytes used.  [None] also when the batch is empty (never called so). *)
  Definition dataPlaceToPageLeaf (rightmost : bool) (bound : T) (items batch : list T)
    : option (list T * list T * N) :=
    match batch with
    | [] => None
    | key :: _ =>
        let '(_, off) := findInLeafPage items key in
        let pre := firstn (off - 1) items in
        let olds := skipn (off - 1) items in
        match place_loop (2 * (length olds + length batch) + 2) rightmost bound olds batch
                (last pre tmin) (run_size tmin pre 0) (leafFree items) false with
        | Some (w, rest, e) => Some (pre ++ w, rest, e)
        | None => None
        end
    end.

  (** First loop of dataSplitPageLeaf (rumdatapage.c:1085-1114): total size and the largest
      item size of a given item sequence. *)
  Fixpoint total_max (prev : T) (l : list T) (total mx : N) : N * N :=
    match l with
    | [] => (total, mx)
    | x :: r =>
        let t' := sz x prev total in
        total_max x r t' (N.max mx (t' - total))
    end.

  (** Loop at rumdatapage.c:1128-1140: how many batch items to append.
      Returns (used, total). *)
  Fixpoint append_fit (news : list T) (prev : T) (total mx : N) : list T * N :=
    match news with
    | [] => ([], total)
    | n :: r =>
        let t' := sz n prev total in
        if (t' + 2 * mx + 2 * 8 <? 2 * psz)%N then
          let '(u, t'') := append_fit r n t' (N.max mx (t' - total)) in (n :: u, t'')
        else ([], total)
    end.

  (** Second loop with CHECK_SWITCH_TO_RPAGE (rumdatapage.c:1017-1033, 1157-1206): items go to
      the left page until more than total/2 bytes are used.  [None] if the switch never
      happens (maxLeftItem would be uninitialised). *)
  Fixpoint split_at (l : list T) (prev : T) (pos total : N) : option (list T * list T) :=
    match l with
    | [] => None
    | x :: r =>
        let p' := sz x prev pos in
        if (total / 2 <? p')%N then Some ([x], r)
        else match split_at r x p' total with
             | Some (a, b) => Some (x :: a, b)
             | None => None
             end
    end.

  (** dataSplitPageLeaf (rumdatapage.c:1044-1223).  [off] is the insertion offset.  Note
      RumPageRightMost(newlPage) on line 1120 is evaluated after RumInitPage has reset the
      right link, so the "rightmost" branch is always taken.
      The C code compares with 2*RumDataPageSize - 2*maxItemSize - 16 in unsigned arithmetic; when
      maxItemSize > RumDataPageSize-8 the subtraction wraps, which [append_fit] does not model (no
      item that large fits a page).
      Result: left items, right items, left-over batch. *)
  Definition dataSplitPageLeaf (items batch : list T) (off : nat)
    : option (list T * list T * list T) :=
    match batch with
    | [] => None
    | n :: rest =>
        if (off <=? length items)%nat then
          let seq := firstn (off - 1) items ++ n :: skipn (off - 1) items in
          let '(total, _) := total_max tmin seq 0 0 in
          match split_at seq tmin 0 total with
          | Some (l, r) => Some (l, r, rest)
          | None => None
          end
        else
          let '(total, mx) := total_max tmin items 0 0 in
          let '(used, total') := append_fit batch (last items tmin) total mx in
          match split_at (items ++ used) tmin 0 total' with
          | Some (l, r) => Some (l, r, skipn (length used) batch)
          | None => None
          end
    end.
End Leaf.
Arguments mkIdx {T}.
Arguments i_key {T}.
Arguments i_off {T}.
