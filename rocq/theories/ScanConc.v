(** A scan of a posting tree while other processes insert into it: rumFindLeafPage, startScanEntry and
    entryGetNextItem with every page read made at its own moment.  Model file: no proofs.

    A process holds a share lock on a page exactly while it reads it and takes the lock of the next page
    after it has released this one, so each page read sees one state of the tree, and the states of
    successive reads are in order of time.  [sched t] is the state at the t-th page read.  Forward
    direction; the tree's pages are numbered within the tree, the root being block 0.

    Simplifications: vacuum does not run (the page a scan pins is never deleted); an error of rumStep and a
    link to a block that does not exist are both [None] or [CErr]; predictNumber is left out. *)
From Verif Require Import Base LeafPage BTree ScanEntry.
From Coq Require Import NArith ZArith Bool Arith List.
Import ListNotations.

(** The result of a descent: an error, no leaf yet, or the leaf read at moment t. *)
Inductive descent := DErr | DMore | DLeaf (t b : nat).

Section Descent.
  Context {T : Type}.
  Variable cmp : T -> T -> Z.
  (** As in BTree.v. *)
  Variable rbound : page T -> T.
  Variable locate : bool -> list (T * nat) -> T -> nat.
  Variable sched : nat -> list (page T).

  (** rumFindLeafPage (rumbtree.c:120-203), searchMode = true and fullScan = false, with rumStep
      (rumbtree.c:208-246): from the page [b] read at moment [t], at most [fuel] page reads. *)
  Fixpoint findLeafC (fuel t root b : nat) (x : T) : descent :=
    match fuel with
    | O => DMore
    | S f =>
        match get (sched t) b with
        | None => DErr
        | Some pg =>
            if negb (b =? root) && moveRight cmp rbound pg x then
              match p_right pg with
              | Some r =>
                  match get (sched (S t)) r with
                  | Some pg' => if negb (Bool.eqb (p_leaf pg) (p_leaf pg')) || p_deleted pg' then DErr else findLeafC f (S t) root r x
                  | None => DErr
                  end
              | None => DErr
              end
            else if p_leaf pg then DLeaf t b
            else
              match nth_error (p_downs pg) (locate (rightmost pg) (p_downs pg) x - 1) with
              | Some (_, c) => findLeafC f (S t) root c x
              | None => DErr
              end
        end
    end.

  (** rumFindLeafPage (rumbtree.c:120-203) with fullScan = true: no step right, and findChildPage takes the
      first downlink (rumdatapage.c:447-455). *)
  Fixpoint leftmostC (fuel t b : nat) : descent :=
    match fuel with
    | O => DMore
    | S f =>
        match get (sched t) b with
        | None => DErr
        | Some pg =>
            if p_leaf pg then DLeaf t b
            else match p_downs pg with
                 | (_, c) :: _ => leftmostC f (S t) c
                 | [] => DErr
                 end
        end
    end.
End Descent.

(** State of a scan between two turns: number of the next page read, page entry->buffer holds, entry. *)
Record cscan (A : Type) := mkC { c_time : nat; c_blk : nat; c_ent : entry A }.
Arguments mkC {A}. Arguments c_time {A}. Arguments c_blk {A}. Arguments c_ent {A}.
(** One turn of the outer loop of entryGetNextItem: an error, another turn, or return to the caller. *)
Inductive turned (A : Type) := CErr | CGo (c : cscan A) | CBack (c : cscan A).
Arguments CErr {A}. Arguments CGo {A}. Arguments CBack {A}.

Section Reader.
  Context {A : Type}.
  Variables (useAlt : bool) (addTo : N) (cmpA : A -> A -> Z).
  Notation item := (item A).
  Variable sched : nat -> list (page item).

  (** What scanPage and startScanEntry read of a page. *)
  Definition leafOf (pg : page item) : leaf A := mkLeaf (p_items pg) (p_bound pg).

  (** The part of startScanEntry that opens a posting tree (rumget.c:651-686): descent to the leftmost leaf,
      a copy of it, and setListPositionScanEntry (rumget.c:490-532).  [junk]: what entry->list[0] held. *)
  Definition startC (fuel : nat) (att : N) (junk : item) : option (cscan A) :=
    match leftmostC sched fuel 0 0 with
    | DLeaf t b =>
        match get (sched t) b with
        | Some pg => Some (mkC (S t) b (mkEntry att Mem (p_items pg) 0%Z (nth 0 (p_items pg) junk) false 0 (fun _ => O)))
        | None => None
        end
    | _ => None
    end.

  (** One turn of the outer loop of entryGetNextItem (rumget.c:923-1028). *)
  Definition turn (c : cscan A) : turned A :=
    let e := c_ent c in
    let t := c_time c in
    match at_off (e_list e) (e_off e) with
    | Some y => CBack (mkC t (c_blk c) (set_cur e y (e_off e + 1)))
    | None =>
        match get (sched t) (c_blk c) with
        | None => CErr
        | Some pg =>
            if negb (p_leaf pg) then CBack (mkC (S t) (c_blk c) e)
            else
              let '(e1, found) := scanPage useAlt addTo cmpA (leafOf pg) (rightmost pg) e (e_cur e) false in
              if found then CBack (mkC (S t) (c_blk c) e1)
              else
                match p_right pg with
                | None => CBack (mkC (S t) (c_blk c) (finish e1))
                | Some r =>
                    match get (sched (S t)) r with
                    | None => CErr
                    | Some pg' =>
                        if negb (p_leaf pg') || p_deleted pg' then CErr
                        else
                          let l := p_items pg' in
                          if ip_valid (ip (e_cur e)) then
                            let o := border (cmpAt useAlt addTo cmpA (e_att e)) (e_cur e) l 0 in
                            if (o <? 0)%Z then CGo (mkC (S (S t)) r (set_list e1 l o))
                            else CBack (mkC (S (S t)) r (set_cur (set_list e1 l o) (nth (Z.to_nat o) l item_min) (o + 1)))
                          else CBack (mkC (S (S t)) r (set_cur (set_list e1 l 0) (nth 0 l (e_cur e)) 1))
                    end
                end
        end
    end.

  (** [n] turns, entryGetItem (rumget.c:1352-1360) being called again each time it returns and has not finished:
      the items it leaves in curItem, and the state reached ([None]: an error). *)
  Fixpoint runC (n : nat) (c : cscan A) : list item * option (cscan A) :=
    match n with
    | O => ([], Some c)
    | S m =>
        if e_fin (c_ent c) then ([], Some c)
        else match turn c with
             | CErr => ([], None)
             | CGo c' => runC m c'
             | CBack c' =>
                 let '(out, r) := runC m c' in
                 (if e_fin (c_ent c') then out else e_cur (c_ent c') :: out, r)
             end
    end.

  (** What a query with this one key gets out of the items: scanGetItemRegular calls entryGetItem again while
      the item is not past the one it returned last (rumget.c:1642-1652). *)
  Fixpoint regular (att : N) (past : option item) (l : list item) : list item :=
    match l with
    | [] => []
    | x :: r =>
        match past with
        | Some y => if (cmpAt useAlt addTo cmpA att x y <=? 0)%Z then regular att past r else x :: regular att (Some x) r
        | None => x :: regular att (Some x) r
        end
    end.
End Reader.
