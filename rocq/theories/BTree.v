(** The balanced trees of rumbtree.c (posting trees and the entry tree share this code
    through the function pointers of RumBtreeData).  Model file: no proofs.

    A tree's pages form a store indexed by block number.  Simplifications: one process; the
    store of one tree only; RumNewBuffer (rumutil.c) always extends the store, so a block is
    never reused; locks are not modelled.  What the page-level function pointers do is a
    parameter of the section; the posting tree's and the entry tree's instances are in
    PostingTree.v and EntryTree.v. *)
From Coq Require Import List ZArith Bool Arith.
Import ListNotations.

(** Update one position of a list (one page of the store). *)
Fixpoint upd {A} (l : list A) (n : nat) (x : A) : list A :=
  match l, n with
  | [], _ => []
  | _ :: r, O => x :: r
  | a :: r, S n' => a :: upd r n' x
  end.

(** A page: RumPageOpaque flags/leftlink/rightlink (rum.h:40-58), leaf items or internal
    (bound, child block) pairs (RumPostingItem, rum.h:185-197), right bound (rum.h:299-301).
    [p_right = None] is RumPageRightMost. *)
Record page (T : Type) := mkPage {
  p_leaf : bool; p_items : list T; p_downs : list (T * nat); p_bound : T;
  p_left : option nat; p_right : option nat; p_deleted : bool }.
Arguments mkPage {T}.
Arguments p_leaf {T}. Arguments p_items {T}. Arguments p_downs {T}. Arguments p_bound {T}.
Arguments p_left {T}. Arguments p_right {T}. Arguments p_deleted {T}.

Definition rightmost {T} (pg : page T) : bool :=
  match p_right pg with None => true | Some _ => false end.

Section Tree.
  Context {T : Type}.
  Variable cmp : T -> T -> Z.
  (** The right bound isMoveRight looks at: a field of a posting tree page, the key of the
      last tuple of an entry page. *)
  Variable rbound : page T -> T.
  (** isEnoughSpace on an internal page: downlinks, key of the downlink to add. *)
  Variable ienough : list (T * nat) -> T -> bool.
  (** Content of a right bound that was never set (zeroed page). *)
  Variable tnull : T.
  (** findChildPage: offset of the downlink to follow (page rightmost?, downlinks, key). *)
  Variable locate : bool -> list (T * nat) -> T -> nat.
  (** findItem on a leaf: found flag and insertion offset. *)
  Variable leafFind : list T -> T -> bool * nat.
  (** isEnoughSpace on a leaf, for the first item of the batch. *)
  Variable leafEnough : list T -> T -> bool.
  (** placeToPage on a leaf: page rightmost?, right bound, items, batch; new items and
      the part of the batch left over. *)
  Variable leafPlace : bool -> T -> list T -> list T -> option (list T * list T).
  (** splitPage on a leaf: items, batch, insertion offset; left, right, batch left over. *)
  Variable leafSplit : list T -> list T -> nat -> option (list T * list T * list T).
  (** splitPage on an internal page: page rightmost?, all downlinks; size of the left part. *)
  Variable isep : bool -> list (T * nat) -> nat.
  (** fillRoot: key of the right half (its right bound, items, downlinks). *)
  Variable rkey : T -> list T -> list (T * nat) -> T.

  Notation page := (page T).
  Definition store := list page.
  Definition get (st : store) (b : nat) : option page := nth_error st b.

  (** dataIsMoveRight (rumdatapage.c:414-428); entryIsMoveRight (rumentrypage.c:121-142). *)
  Definition moveRight (pg : page) (x : T) : bool :=
    match p_right pg with None => false | Some _ => (0 <? cmp x (rbound pg))%Z end.

  (** rumFindLeafPage (rumbtree.c:120-203), fullScan = false.  [stack] lists the pages above
      with the offset followed, nearest first.  [None]: fuel exhausted, or a link to a block
      that does not exist, or an offset outside the page. *)
  Fixpoint findLeaf (fuel : nat) (st : store) (root b : nat) (stack : list (nat * nat)) (x : T)
    : option (nat * list (nat * nat)) :=
    match fuel with
    | O => None
    | S f =>
        match get st b with
        | None => None
        | Some pg =>
            if negb (b =? root) && moveRight pg x then
              match p_right pg with
              | Some r => findLeaf f st root r stack x
              | None => None
              end
            else if p_leaf pg then Some (b, stack)
            else
              let o := locate (rightmost pg) (p_downs pg) x in
              match nth_error (p_downs pg) (o - 1) with
              | Some (_, c) => findLeaf f st root c ((b, o) :: stack) x
              | None => None
              end
        end
    end.

  (** Search for a child block in downlinks, the first of which has offset [i]. *)
  Fixpoint find_child_from (d : list (T * nat)) (c i : nat) : option nat :=
    match d with
    | [] => None
    | (_, c') :: r => if c' =? c then Some i else find_child_from r c (S i)
    end.
  (** dataFindChildPtr (rumdatapage.c:645-685); entryFindChildPtr (rumentrypage.c:283-322):
      the stored offset, then the offsets after it, then those before it. *)
  Definition findChildPtr (pg : page) (c stored : nat) : option nat :=
    let d := p_downs pg in
    if (1 <=? stored) && (stored <=? length d) then
      match find_child_from (skipn (stored - 1) d) c stored with
      | Some o => Some o
      | None => find_child_from (firstn (stored - 1) d) c 1
      end
    else find_child_from d c 1.

  (** The move-right loops of rumInsertValue (rumbtree.c:615-636) and rumFindParents
      (rumbtree.c:332-343).  Outer [None]: broken link; [Some None]: not found. *)
  Fixpoint walkParent (fuel : nat) (st : store) (b stored c : nat) : option (option (nat * nat)) :=
    match fuel with
    | O => None
    | S f =>
        match get st b with
        | None => None
        | Some pg =>
            match findChildPtr pg c stored with
            | Some o => Some (Some (b, o))
            | None =>
                match p_right pg with
                | None => Some None
                | Some r => walkParent f st r 0 c
                end
            end
        end
    end.

  (** The for(;;) loop of rumFindParents (rumbtree.c:322-358), one level per turn.
      [Some None] is elog(ERROR, "Lost path"). *)
  Fixpoint findParentsLoop (fuel : nat) (st : store) (root b c : nat)
    : option (option (list (nat * nat))) :=
    match fuel with
    | O => None
    | S f =>
        match get st b with
        | None => None
        | Some pg =>
            if p_leaf pg then Some None
            else
              match p_downs pg with
              | [] => None
              | (_, lm) :: _ =>
                  match walkParent (S (length st)) st b 0 c with
                  | None => None
                  | Some (Some (p, o)) => Some (Some [(p, o); (root, 0)])
                  | Some None => findParentsLoop f st root lm c
                  end
              end
        end
    end.

  (** rumFindParents (rumbtree.c:269-359). *)
  Definition rumFindParents (st : store) (root c : nat) : option (option (list (nat * nat))) :=
    match get st root with
    | None => None
    | Some pg =>
        match findChildPtr pg c 0 with
        | Some o => Some (Some [(root, o)])
        | None =>
            match p_downs pg with
            | [] => None
            | (_, lm) :: _ => findParentsLoop (S (length st)) st root lm c
            end
        end
    end.

  (** The parent search of rumInsertValue (rumbtree.c:610-640): result is the new stack. *)
  Definition findParent (st : store) (root c : nat) (up : list (nat * nat))
    : option (option (list (nat * nat))) :=
    match up with
    | [] => None
    | (pb, off) :: rest =>
        match walkParent (S (length st)) st pb off c with
        | None => None
        | Some (Some (p, o)) => Some (Some ((p, o) :: rest))
        | Some None => rumFindParents st root c
        end
    end.

  (** dataPrepareData + RumDataPageAddItem (rumdatapage.c:721-748, 820-840); entryPreparePage +
      entryPlaceToPage: the downlink at [off] is set to the right page, the left page with its
      bound goes before it. *)
  Definition placeDown (d : list (T * nat)) (off : nat) (k : T) (lb rb : nat) : list (T * nat) :=
    firstn (off - 1) d ++
    (k, lb) :: match skipn (off - 1) d with
               | (k0, _) :: r => (k0, rb) :: r
               | [] => []
               end.

  Definition set_left (st : store) (b : option nat) (l : nat) : store :=
    match b with
    | None => st
    | Some b' =>
        match get st b' with
        | Some pg => upd st b' (mkPage (p_leaf pg) (p_items pg) (p_downs pg) (p_bound pg)
                                  (Some l) (p_right pg) (p_deleted pg))
        | None => st
        end
    end.

  (** Split of a non-root page [b] (rumbtree.c:536-606): one logged change of the page, its
      new right sibling and the left link of the page after it. *)
  Definition splitNonRoot (st : store) (b : nat) (pg : page) (k : T)
      (li ri : list T) (ld rd : list (T * nat)) : store * nat :=
    let r := length st in
    let lp := mkPage (p_leaf pg) li ld k (p_left pg) (Some r) false in
    let rp := mkPage (p_leaf pg) ri rd (p_bound pg) (Some b) (p_right pg) false in
    (set_left (upd st b lp ++ [rp]) (p_right pg) r, r).

  (** Split of the root [b] (rumbtree.c:442-530): both halves get new blocks and the root
      becomes an internal page with two downlinks; one logged change. *)
  Definition splitRoot (st : store) (b : nat) (pg : page) (k : T)
      (li ri : list T) (ld rd : list (T * nat)) : store :=
    let r := length st in
    let l := S r in
    let rp := mkPage (p_leaf pg) ri rd (p_bound pg) (Some l) None false in
    let lp := mkPage (p_leaf pg) li ld k None (Some r) false in
    upd st b (mkPage false [] [(k, l); (rkey (p_bound pg) ri rd, r)] tnull None None false) ++ [rp; lp].

  Definition set_page (st : store) (b : nat) (pg : page) (items : list T) (downs : list (T * nat))
    : store :=
    upd st b (mkPage (p_leaf pg) items downs (p_bound pg) (p_left pg) (p_right pg) (p_deleted pg)).

  (** The upper turns of the loop of rumInsertValue (rumbtree.c:388-641): insert the downlink
      (k, lb) and redirect the old one to rb.  Result: the stores after each logged change,
      and whether "Lost path" was raised. *)
  Fixpoint insertUp (fuel : nat) (st : store) (root : nat) (stack : list (nat * nat))
      (k : T) (lb rb : nat) : option (list store * bool) :=
    match fuel with
    | O => None
    | S f =>
        match stack with
        | [] => None
        | (p, off) :: up =>
            match get st p with
            | None => None
            | Some pg =>
                let d := placeDown (p_downs pg) off k lb rb in
                if ienough (p_downs pg) k then
                  Some ([set_page st p pg (p_items pg) d], false)
                else
                  let sep := isep (rightmost pg) d in
                  let ld := firstn sep d in
                  let rd := skipn sep d in
                  let k' := fst (last ld (k, lb)) in
                  match up with
                  | [] => Some ([splitRoot st p pg k' [] [] ld rd], false)
                  | _ =>
                      let '(st1, r) := splitNonRoot st p pg k' [] [] ld rd in
                      match findParent st1 root p up with
                      | None => None
                      | Some None => Some ([st1], true)
                      | Some (Some stack') =>
                          match insertUp f st1 root stack' k' p r with
                          | None => None
                          | Some (tr, lost) => Some (st1 :: tr, lost)
                          end
                      end
                  end
            end
        end
    end.

  (** rumInsertValue (rumbtree.c:369-642) for the leaf [b] found with [stack].
      Result: stores after each logged change, batch left over, "Lost path" raised. *)
  Definition insertValue (st : store) (root b : nat) (stack : list (nat * nat)) (batch : list T)
    : option (list store * list T * bool) :=
    match get st b, batch with
    | Some pg, x :: _ =>
        if leafEnough (p_items pg) x then
          match leafPlace (rightmost pg) (p_bound pg) (p_items pg) batch with
          | Some (items', rest) => Some ([set_page st b pg items' (p_downs pg)], rest, false)
          | None => None
          end
        else
          let off := snd (leafFind (p_items pg) x) in
          match leafSplit (p_items pg) batch off with
          | None => None
          | Some (l, r, rest) =>
              let k := last l x in
              match stack with
              | [] => Some ([splitRoot st b pg k l r [] []], rest, false)
              | _ =>
                  let '(st1, rb) := splitNonRoot st b pg k l r [] [] in
                  match findParent st1 root b stack with
                  | None => None
                  | Some None => Some ([st1], rest, true)
                  | Some (Some stack') =>
                      match insertUp (S (length st)) st1 root stack' k b rb with
                      | None => None
                      | Some (tr, lost) => Some (st1 :: tr, rest, lost)
                      end
                  end
              end
          end
    | _, _ => None
    end.

  (** rumInsertItemPointers (rumdatapage.c:1511-1547).  Result: stores after each logged
      change (oldest first) and whether "Lost path" ended the insertion. *)
  Fixpoint insertItems (fuel : nat) (st : store) (root : nat) (batch : list T)
    : option (list store * bool) :=
    match batch with
    | [] => Some ([], false)
    | x :: rest =>
        match fuel with
        | O => None
        | S f =>
            match findLeaf (S (length st)) st root root [] x with
            | None => None
            | Some (b, stack) =>
                match get st b with
                | None => None
                | Some pg =>
                    if fst (leafFind (p_items pg) x) then insertItems f st root rest
                    else
                      match insertValue st root b stack batch with
                      | None => None
                      | Some (tr, rest', lost) =>
                          if lost then Some (tr, true)
                          else
                            match insertItems f (last tr st) root rest' with
                            | None => None
                            | Some (tr', lost') => Some (tr ++ tr', lost')
                            end
                      end
                end
            end
        end
    end.
  Definition insertAll (st : store) (root : nat) (batch : list T) :=
    insertItems (S (length batch)) st root batch.

  (** Key search: rumFindLeafPage then findItem. *)
  Definition lookup (st : store) (root : nat) (x : T) : option bool :=
    match findLeaf (S (length st)) st root root [] x with
    | None => None
    | Some (b, _) =>
        match get st b with
        | Some pg => Some (fst (leafFind (p_items pg) x))
        | None => None
        end
    end.

  (** rumFindLeafPage with fullScan, forward direction (rumdatapage.c:447-455). *)
  Fixpoint leftmostLeaf (fuel : nat) (st : store) (b : nat) : option nat :=
    match fuel with
    | O => None
    | S f =>
        match get st b with
        | None => None
        | Some pg =>
            if p_leaf pg then Some b
            else match p_downs pg with
                 | [] => None
                 | (_, c) :: _ => leftmostLeaf f st c
                 end
        end
    end.
  (** Walk over the right links (rumStep, rumbtree.c:208-246), collecting the items.
      Stepping on a deleted page or a page of another kind is an error ([None]). *)
  Fixpoint walkRight (fuel : nat) (st : store) (b : nat) : option (list T) :=
    match fuel with
    | O => None
    | S f =>
        match get st b with
        | None => None
        | Some pg =>
            if negb (p_leaf pg) || p_deleted pg then None
            else match p_right pg with
                 | None => Some (p_items pg)
                 | Some r =>
                     match walkRight f st r with
                     | Some l => Some (p_items pg ++ l)
                     | None => None
                     end
                 end
        end
    end.
  (** A full forward scan of the tree. *)
  Definition scan (st : store) (root : nat) : option (list T) :=
    match leftmostLeaf (S (length st)) st root with
    | Some b => walkRight (S (length st)) st b
    | None => None
    end.
End Tree.
