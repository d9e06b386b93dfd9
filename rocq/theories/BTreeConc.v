(** Insertions that overlap in one tree (rumbtree.c).  Model file: no proofs.

    Every writer inserts one row.  A step of a writer is what it does to one page while it has
    that page locked; between two steps any other writer may take its own.  A writer that has
    split a page keeps the page locked until it has locked the parent and found the downlink
    there; it then releases the page and keeps the parent.  A step that needs a page locked by
    another writer has to wait.  rumStep (rumbtree.c:208-246) unlocks a page before it locks
    the next one, so nothing is held on the way.  Simplifications: a change of a page, its new
    right neighbour and the left link of the page after it happens at one moment, at which all
    three are locked (the code waits for the third with the first locked; in the model it waits
    before); searching takes the same lock as changing (the code shares it); no vacuum; a block
    is never reused. *)
From Verif Require Import BTree.
From Coq Require Import List ZArith Bool Arith.
Import ListNotations.

Section Conc.
  Context {T : Type}.
  Variable cmp : T -> T -> Z.
  Variable rbound : page T -> T.
  Variable ienough : list (T * nat) -> T -> bool.
  Variable tnull : T.
  Variable locate : bool -> list (T * nat) -> T -> nat.
  Variable leafFind : list T -> T -> bool * nat.
  Variable leafEnough : list T -> T -> bool.
  Variable leafPlace : bool -> T -> list T -> list T -> option (list T * list T).
  Variable leafSplit : list T -> list T -> nat -> option (list T * list T * list T).
  Variable isep : bool -> list (T * nat) -> nat.
  Variable rkey : T -> list T -> list (T * nat) -> T.
  Notation page := (page T).
  Notation store := (list page).

  (** Where a writer stands. *)
  Inductive writer :=
  | WDown (x : T) (b : nat) (stack : list (nat * nat))
      (** rumFindLeafPage (rumbtree.c:120-203): about to lock page [b]; nothing is locked *)
  | WWalk (k : T) (lb rb b off : nat) (up : list (nat * nat))
      (** rumInsertValue (rumbtree.c:610-636): [lb], split into [lb] and [rb] with bound [k], is
          locked; about to lock [b], which may be the parent; [off], [up]: RumBtreeStack *)
  | WRoot (k : T) (lb rb : nat)
      (** rumFindParents (rumbtree.c:284-308): [lb] is locked; about to lock the root *)
  | WLevel (k : T) (lb rb b : nat) (lm : option nat)
      (** the loop of rumFindParents (rumbtree.c:322-358): [lb] is locked; about to lock [b];
          [lm] is leftmostBlkno once the first page of the level was read *)
  | WPlace (k : T) (lb rb p off : nat) (up : list (nat * nat))
      (** rumbtree.c:638-641 passed: the parent [p], with the downlink of [lb] at [off], is
          locked, [lb] is not any more *)
  | WDone
  | WLost    (** elog(ERROR, "Lost path") *)
  | WBroken. (** a link to a block that does not exist, or an offset outside the page *)

  (** The page a writer has locked between its steps. *)
  Definition locked (w : writer) : option nat :=
    match w with
    | WWalk _ lb _ _ _ _ | WRoot _ lb _ | WLevel _ lb _ _ _ => Some lb
    | WPlace _ _ _ p _ _ => Some p
    | _ => None
    end.
  (** No writer but number [i] has [b] locked. *)
  Definition free (ws : list writer) (i b : nat) : bool :=
    forallb (fun j => (j =? i) || match nth_error ws j with
                                  | Some w => match locked w with Some q => negb (q =? b) | None => true end
                                  | None => true
                                  end) (seq 0 (length ws)).
  (** The lock on the right neighbour taken by a split (rumbtree.c:571-586). *)
  Definition freeRight (fr : nat -> bool) (pg : page) : bool :=
    match p_right pg with None => true | Some r => fr r end.

  (** A locked leaf: findItem (rumdatapage.c:1531-1541), then the first turn of rumInsertValue
      (rumbtree.c:388-606). *)
  Definition actLeaf (fr : nat -> bool) (st : store) (root b : nat) (pg : page) (stack : list (nat * nat)) (x : T)
    : option (store * writer) :=
    if fst (leafFind (p_items pg) x) then Some (st, WDone)
    else if leafEnough (p_items pg) x then
      match leafPlace (rightmost pg) (p_bound pg) (p_items pg) [x] with
      | Some (items', _) => Some (set_page st b pg items' (p_downs pg), WDone)
      | None => Some (st, WBroken)
      end
    else
      match leafSplit (p_items pg) [x] (snd (leafFind (p_items pg) x)) with
      | None => Some (st, WBroken)
      | Some (l, r, _) =>
          let k := last l x in
          match stack with
          | [] => Some (splitRoot tnull rkey st b pg k l r [] [], WDone)
          | (q, o) :: up =>
              if freeRight fr pg then
                let '(st1, rb) := splitNonRoot st b pg k l r [] [] in
                Some (st1, WWalk k b rb q o up)
              else None
          end
      end.

  (** One step of a writer; [None]: it has to wait.  [fr b]: no other writer has [b] locked. *)
  Definition act (fr : nat -> bool) (st : store) (root : nat) (w : writer) : option (store * writer) :=
    match w with
    | WDown x b stack =>
        if negb (fr b) then None
        else match get st b with
        | None => Some (st, WBroken)
        | Some pg =>
            if negb (b =? root) && moveRight cmp rbound pg x then
              match p_right pg with
              | Some r => Some (st, WDown x r stack)
              | None => Some (st, WBroken)
              end
            else if p_leaf pg then actLeaf fr st root b pg stack x
            else
              let o := locate (rightmost pg) (p_downs pg) x in
              match nth_error (p_downs pg) (o - 1) with
              | Some (_, c) => Some (st, WDown x c ((b, o) :: stack))
              | None => Some (st, WBroken)
              end
        end
    | WWalk k lb rb b off up =>
        if negb (fr b) then None
        else match get st b with
        | None => Some (st, WBroken)
        | Some pg =>
            match findChildPtr pg lb off with
            | Some o => Some (st, WPlace k lb rb b o up)
            | None =>
                match p_right pg with
                | Some r => Some (st, WWalk k lb rb r 0 up)
                | None => Some (st, WRoot k lb rb)
                end
            end
        end
    | WRoot k lb rb =>
        if negb (fr root) then None
        else match get st root with
        | None => Some (st, WBroken)
        | Some pg =>
            match findChildPtr pg lb 0 with
            | Some o => Some (st, WPlace k lb rb root o [])
            | None =>
                match p_downs pg with
                | [] => Some (st, WBroken)
                | (_, lm) :: _ => Some (st, WLevel k lb rb lm None)
                end
            end
        end
    | WLevel k lb rb b lm =>
        if negb (fr b) then None
        else match get st b with
        | None => Some (st, WBroken)
        | Some pg =>
            if p_leaf pg then Some (st, WLost)
            else
              match match lm with Some m => Some m | None => option_map snd (hd_error (p_downs pg)) end with
              | None => Some (st, WBroken)
              | Some m =>
                  match findChildPtr pg lb 0 with
                  | Some o => Some (st, WPlace k lb rb b o [(root, 0)])
                  | None =>
                      match p_right pg with
                      | Some r => Some (st, WLevel k lb rb r (Some m))
                      | None => Some (st, WLevel k lb rb m None)
                      end
                  end
              end
        end
    | WPlace k lb rb p off up =>
        (** an upper turn of rumInsertValue (rumbtree.c:388-606) *)
        match get st p with
        | None => Some (st, WBroken)
        | Some pg =>
            let d := placeDown (p_downs pg) off k lb rb in
            if ienough (p_downs pg) k then
              Some (set_page st p pg (p_items pg) d, WDone)
            else
              let sep := isep (rightmost pg) d in
              let ld := firstn sep d in
              let rd := skipn sep d in
              let k' := fst (last ld (k, lb)) in
              match up with
              | [] => Some (splitRoot tnull rkey st p pg k' [] [] ld rd, WDone)
              | (q, o) :: up' =>
                  if freeRight fr pg then
                    let '(st1, r) := splitNonRoot st p pg k' [] [] ld rd in
                    Some (st1, WWalk k' p r q o up')
                  else None
              end
        end
    | WDone | WLost | WBroken => None
    end.

  (** Writer number [i] takes a step, or waits. *)
  Definition sysStep (root : nat) (s : store * list writer) (i : nat) : store * list writer :=
    match nth_error (snd s) i with
    | None => s
    | Some w =>
        match act (free (snd s) i) (fst s) root w with
        | Some (st', w') => (st', upd (snd s) i w')
        | None => s
        end
    end.
  (** The steps of all writers in the order [sched]; one writer per row of [rows], each starts at
      the root (rumInsertItemPointers, rumdatapage.c:1511-1547) when its number comes first. *)
  Definition overlap (root : nat) (st : store) (rows : list T) (sched : list nat) : store * list writer :=
    fold_left (sysStep root) sched (st, map (fun x => WDown x root []) rows).
End Conc.
Arguments writer : clear implicits.
