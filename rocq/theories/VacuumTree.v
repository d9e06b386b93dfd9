(** Vacuum of a posting tree (rumvacuum.c) on the page store of BTree.v.  Model file: no proofs.
    Vacuum holds a cleanup lock on the root all the time, so nothing else changes the tree meanwhile; readers are not
    modelled.  Traces list the store after each logged change. *)
From Verif Require Import BTree.
From Coq Require Import List ZArith Bool Arith.
Import ListNotations.

Section Vacuum.
  Context {T : Type}.
  (** Is the row not dead?  (The callback of rumVacuumPostingList; on a leaf's bytes: C14.) *)
  Variable live : T -> bool.
  Notation page := (page T).
  Notation store := (list page).

  (** One child after the other, the page itself not changing (rumvacuum.c:290-298). *)
  Fixpoint each (f : store -> nat -> option (list store * bool)) (st : store) (d : list (T * nat)) : option (list store * bool) :=
    match d with
    | [] => Some ([], false)
    | (_, c) :: d' =>
        match f st c with
        | None => None
        | Some (tr, v) =>
            match each f (last tr st) d' with
            | None => None
            | Some (tr', v') => Some (tr ++ tr', v || v')
            end
        end
    end.
  (** rumVacuumPostingTreeLeaves (rumvacuum.c:214-309); result: changes and hasVoidPage.  [None]: a link to a block
      that does not exist, or fuel (the depth) exhausted. *)
  Fixpoint vacuumLeaves (fuel : nat) (isRoot : bool) (st : store) (b : nat) : option (list store * bool) :=
    match fuel with
    | O => None
    | S f =>
        match get st b with
        | None => None
        | Some pg =>
            if p_leaf pg then
              let items := filter live (p_items pg) in
              if length items =? length (p_items pg) then Some ([], false)
              else Some ([set_page st b pg items (p_downs pg)], negb isRoot && (length items =? 0))
            else each (vacuumLeaves f false) st (p_downs pg)
        end
    end.

  Definition with_left (pg : page) (l : option nat) : page :=
    mkPage (p_leaf pg) (p_items pg) (p_downs pg) (p_bound pg) l (p_right pg) (p_deleted pg).
  Definition with_right (pg : page) (r : option nat) : page :=
    mkPage (p_leaf pg) (p_items pg) (p_downs pg) (p_bound pg) (p_left pg) r (p_deleted pg).
  (** maxoff < FirstOffsetNumber. *)
  Definition noItems (pg : page) : bool := match p_items pg, p_downs pg with [], [] => true | _, _ => false end.
  (** RumPageDeletePostingItem (rumdatapage.c:754-775). *)
  Definition deleteDown (d : list (T * nat)) (off : nat) : list (T * nat) := firstn (off - 1) d ++ skipn off d.
  (** rumDeletePage (rumvacuum.c:315-447): the new store if the page was deleted.  Setting the flags to RUM_DELETED
      clears the leaf flag.  Outer [None]: a link to a missing block, or waiting for ever (nothing else changes the
      pages, so a failed last check fails again). *)
  Definition deletePage (st : store) (d parent off : nat) : option (option store) :=
    match get st d with
    | None => None
    | Some pd =>
        match p_left pd, p_right pd with
        | Some l, Some r =>
            match get st l, get st r, get st parent with
            | Some pl, Some pr, Some pp =>
                if match p_right pl with Some x => x =? d | None => false end && match p_left pr with Some x => x =? d | None => false end && noItems pd then
                  let st := upd st l (with_right pl (Some r)) in
                  let st := upd st r (with_left pr (Some l)) in
                  let st := upd st parent (mkPage (p_leaf pp) (p_items pp) (deleteDown (p_downs pp) off) (p_bound pp) (p_left pp) (p_right pp) (p_deleted pp)) in
                  Some (Some (upd st d (mkPage false (p_items pd) (p_downs pd) (p_bound pd) (p_left pd) (p_right pd) true)))
                else if negb (noItems pd) then Some None
                else None
            | _, _, _ => None
            end
        | _, _ => Some None
        end
    end.
  (** The loop over the downlinks of [b] (rumvacuum.c:493-501): [del st c i] handles the child at offset [i] and tells
      whether its downlink is gone. *)
  Fixpoint delEach (del : store -> nat -> nat -> option (list store * bool)) (n : nat) (st : store) (b i : nat) : option (list store) :=
    match get st b with
    | None => None
    | Some pg =>
        if i <=? length (p_downs pg) then
          match n, nth_error (p_downs pg) (i - 1) with
          | S n', Some (_, c) =>
              match del st c i with
              | None => None
              | Some (tr, gone) =>
                  match delEach del n' (last tr st) b (if gone then i else S i) with
                  | None => None
                  | Some tr' => Some (tr ++ tr')
                  end
              end
          | _, _ => None
          end
        else Some []
    end.
  (** rumScanToDelete (rumvacuum.c:461-521) on the page [b]; [parent]: the page above and the offset of the downlink, none
      for the root.  Result: changes, and whether the page was deleted. *)
  Fixpoint scanToDelete (fuel : nat) (st : store) (b : nat) (parent : option (nat * nat)) : option (list store * bool) :=
    match fuel with
    | O => None
    | S f =>
        match get st b with
        | None => None
        | Some pg =>
            match (if p_leaf pg then Some [] else delEach (fun st c i => scanToDelete f st c (Some (b, i))) (length (p_downs pg)) st b 1) with
            | None => None
            | Some tr =>
                let st := last tr st in
                match get st b, parent with
                | None, _ => None
                | Some pg', Some (p, off) =>
                    if noItems pg' then
                      match deletePage st b p off with
                      | None => None
                      | Some None => Some (tr, false)
                      | Some (Some st') => Some (tr ++ [st'], true)
                      end
                    else Some (tr, false)
                | Some _, None => Some (tr, false)
                end
            end
        end
    end.
  (** rumVacuumPostingTree (rumvacuum.c:523-557). *)
  Definition vacuumTree (st : store) (root : nat) : option (list store) :=
    match vacuumLeaves (S (length st)) true st root with
    | None => None
    | Some (tr, false) => Some tr
    | Some (tr, true) =>
        match scanToDelete (S (length st)) (last tr st) root None with
        | None => None
        | Some (tr', _) => Some (tr ++ tr')
        end
    end.
End Vacuum.
