(** Vacuum of the whole index (rumbulkdelete): entry tree, posting lists and posting trees.  Model file: no proofs.

    Simplifications: the statistics are not modelled; a posting list is kept as the list of its rows, so cleaning it is
    [filter] (on bytes: C14); nothing else changes the index between two steps. *)
From Verif Require Import Base Codec Entries BTree PostingTree EntryTree VacuumTree VacTreeSpec.
From Coq Require Import NArith ZArith Bool Arith List.
Import ListNotations.

Section VacIndex.
  Context {K : Type}.
  Variable altOf : N -> bool.
  Variable attrOf : N -> attr.
  Variable rawSize : ekey K -> N.
  (** The callback: is the row at this heap address dead? *)
  Variable dead : iptr -> bool.
  Notation etup := (etup K).
  Notation istate := (@istate K).

  (** One tuple in the loop of rumVacuumEntryPage (rumvacuum.c:576-646): [None] when RumFormTuple raises "too big";
      otherwise the tuple and whether it was remade. *)
  Definition vacuumTuple (t : etup) : option (etup * bool) :=
    match t_data t with
    | PTree _ => Some (t, false)
    | PList [] => Some (t, false)
    | PList rows =>
        let kept := filter (alive dead) rows in
        if length rows =? length kept then Some (t, false)
        else option_map (fun t' => (t', true)) (RumFormTuple altOf attrOf rawSize (t_key t) (PList kept))
    end.
  Inductive cleaned := CleanError | CleanTooBig | CleanPage (items : list etup) (changed : bool).
  (** The loop from the tuple [todo] starts with, [done] being the tuples before it (rumvacuum.c:576-646).  A remade tuple
      is deleted from the copy of the page and added again; [CleanError]: PageAddItem fails. *)
  Fixpoint vacuumTuples (done todo : list etup) (changed : bool) : cleaned :=
    match todo with
    | [] => CleanPage done changed
    | t :: rest =>
        match vacuumTuple t with
        | None => CleanTooBig
        | Some (t', remade) =>
            if remade && (entryPageSpace <? usedSpace (tupsize altOf attrOf rawSize) (done ++ t' :: rest))%N then CleanError
            else vacuumTuples (done ++ [t']) rest (changed || remade)
        end
    end.
  (** The roots collected on the way (rumvacuum.c:580-589). *)
  Definition roots (items : list etup) : list nat :=
    flat_map (fun t => match t_data t with PTree n => [n] | PList _ => [] end) items.

  (** rumVacuumPostingTree on the collected roots (rumvacuum.c:751-760). *)
  Fixpoint vacuumTrees (ix : istate) (l : list nat) : option (list istate) :=
    match l with
    | [] => Some []
    | n :: l' =>
        match nth_error (i_trees ix) n with
        | None => None
        | Some t =>
            match ptVacuum dead t with
            | None => None
            | Some tr =>
                let tr1 := map (set_tree ix n) tr in
                option_map (app tr1) (vacuumTrees (last tr1 ix) l')
            end
        end
    end.
  (** One page of the second loop of rumbulkdelete (rumvacuum.c:720-760): the cleaned page is written in one logged
      change, then the posting trees are vacuumed. *)
  Definition vacuumPage (ix : istate) (b : nat) (pg : page etup) : option (list istate * outcome) :=
    match vacuumTuples [] (p_items pg) false with
    | CleanError => None
    | CleanTooBig => Some ([], TooBig)
    | CleanPage items changed =>
        let tr1 := if changed then [set_entry ix (set_page (i_entry ix) b pg items (p_downs pg))] else [] in
        option_map (fun tr2 => (tr1 ++ tr2, Done)) (vacuumTrees (last tr1 ix) (roots (p_items pg)))
    end.
  (** The second loop of rumbulkdelete (rumvacuum.c:718-768): the leaves from [b] on, by the right links read before the page
      was changed.  [None]: a link to a missing block, a failed vacuum of a tree or page, or fuel exhausted. *)
  Fixpoint vacuumLeavesFrom (fuel : nat) (ix : istate) (b : nat) : option (list istate * outcome) :=
    match fuel with
    | O => None
    | S f =>
        match get (i_entry ix) b with
        | None => None
        | Some pg =>
            match vacuumPage ix b pg with
            | Some (tr, Done) =>
                match p_right pg with
                | None => Some (tr, Done)
                | Some r =>
                    match vacuumLeavesFrom f (last tr ix) r with
                    | None => None
                    | Some (tr', o) => Some (tr ++ tr', o)
                    end
                end
            | r => r
            end
        end
    end.
  (** rumbulkdelete (rumvacuum.c:651-771): down the first downlinks to the leftmost leaf, then to the right. *)
  Definition rumbulkdelete (ix : istate) : option (list istate * outcome) :=
    match leftmostLeaf (S (length (i_entry ix))) (i_entry ix) 0 with
    | None => None
    | Some b => vacuumLeavesFrom (S (length (i_entry ix))) ix b
    end.
End VacIndex.
