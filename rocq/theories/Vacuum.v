(** Vacuum of one posting list, byte level (rumvacuum.c).  Model file: no proofs. *)
From Verif Require Import Base Codec.
From Coq Require Import NArith.
Local Open Scope N_scope.

(** The loop of rumVacuumPostingList (rumvacuum.c:62-90) with [n] items left.  [done] and [bs]: the
    bytes of [src] already read and not yet read; [prev]: address of the last item read; [dst]: the
    copy, once something was removed; [prevIptr]: address of the last item kept; [j]: items kept.
    [src] and the palloc'd copy both start MAXALIGNed: positions are counted from their start.
    The callback does not change its answers while vacuum runs; i != j is [dst <> None].
    [None]: reading past the list or an elog(ERROR). *)
Fixpoint vacuum_loop (alt : bool) (a : attr) (dead : iptr -> bool) (n : nat) (done bs : list byte) (prev : iptr)
  (dst : option (list byte)) (prevIptr : iptr) (j : nat) : option (nat * option (list byte)) :=
  match n with
  | O => Some (j, dst)
  | S n' =>
      match rumDataPageLeafRead alt a (nlen done) bs prev with
      | None => None
      | Some (it, pos', bs') =>
          let done' := done ++ firstn (length bs - length bs') bs in
          if dead (ip it) then
            vacuum_loop alt a dead n' done' bs' (ip it) (Some (match dst with None => done | Some d => d end)) prevIptr j
          else
            match dst with
            | None => vacuum_loop alt a dead n' done' bs' (ip it) None (ip it) (S j)
            | Some d =>
                match rumPlaceToDataPageLeaf alt a (nlen d) it prevIptr with
                | None => None
                | Some w => vacuum_loop alt a dead n' done' bs' (ip it) (Some (d ++ w)) (ip it) (S j)
                end
            end
      end
  end.
(** rumVacuumPostingList (rumvacuum.c:43-94): number of items left and the new bytes, if changed. *)
Definition rumVacuumPostingList (alt : bool) (a : attr) (dead : iptr -> bool) (src : list byte) (nitem : nat)
  : option (nat * option (list byte)) :=
  vacuum_loop alt a dead nitem [] src ip_min None ip_min 0.

(** rumVacuumPostingTreeLeaves on a leaf (rumvacuum.c:253-284), and the posting-list case of
    rumVacuumEntryPage (rumvacuum.c:578-632): the list kept on the page and its item count; the old
    list when no item was removed.  [size]: bytes allocated for the copy. *)
Definition vacuumStored (alt : bool) (a : attr) (dead : iptr -> bool) (src : list byte) (nitem : nat)
  : option (nat * list byte) :=
  match rumVacuumPostingList alt a dead src nitem with
  | None => None
  | Some (n', cleaned) =>
      if (n' =? nitem)%nat then Some (nitem, src)
      else match cleaned with Some d => Some (n', d) | None => None end
  end.
