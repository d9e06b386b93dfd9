(** The sort of the rows found when they do not fit work_mem: runs on tapes and their merge (rumsort.c, tuplesort15.c).
    Model file: no proofs.  The sort of one memory load is a parameter ([sortRun]; SortItems.v has one).  [d]: what a read
    outside of an array would give (the theorems hold for every [d]).
    Simplifications: a run is read from its tape before the merge starts; run number r is on tape r mod k
    and each merge takes the next run of every tape (selectnewtape, tuplesort15.c:2929-2956), so the tapes of a pass are
    given as the list of their runs, of which each merge takes the next k; k is maxTapes.
    Not modelled: the buffers and files below the tapes (logtape.c of PostgreSQL), memory accounting, parallel sorts, the
    polyphase merge of tuplesort13.c and older. *)
From Verif Require Import Base Codec Qsort.
From Coq Require Import NArith ZArith Arith Bool List.
Import ListNotations.

(** A binary heap in an array: memtuples. *)
Section Heap.
  Context {B : Type}.
  Variable d : B.
  Variable c : B -> B -> Z.
  Notation at' := (at' d).
  (** tuplesort_heap_insert (tuplesort15.c:3717-3743); the new slot's old content is not read.  [fuel]: turns; the theorems
      show that the size plus one is enough. *)
  Fixpoint siftUp (fuel : nat) (h : list B) (j : nat) (x : B) : list B :=
    match fuel with
    | O => h
    | S f =>
        if 0 <? j then
          let i := (j - 1) / 2 in
          if (0 <=? c x (at' h i))%Z then upd j x h else siftUp f (upd j (at' h i) h) i x
        else upd j x h
    end.
  Definition heap_insert (h : list B) (x : B) : list B := siftUp (S (length h)) (h ++ [x]) (length h) x.
  (** tuplesort_heap_replace_top (tuplesort15.c:3776-3809). *)
  Fixpoint siftDown (fuel : nat) (h : list B) (i : nat) (x : B) : list B :=
    match fuel with
    | O => h
    | S f =>
        let n := length h in
        let j := 2 * i + 1 in
        if n <=? j then upd i x h
        else
          let j' := if (j + 1 <? n) && (0 <? c (at' h j) (at' h (j + 1)))%Z then j + 1 else j in
          if (c x (at' h j') <=? 0)%Z then upd i x h else siftDown f (upd i (at' h j') h) j' x
    end.
  Definition heap_replace_top (h : list B) (x : B) : list B := siftDown (S (length h)) h 0 x.
  (** tuplesort_heap_delete_top (tuplesort15.c:3752-3767). *)
  Definition heap_delete_top (h : list B) : list B :=
    match length h - 1 with
    | O => []
    | n => heap_replace_top (firstn n h) (at' h n)
    end.
End Heap.

Section Spill.
  Context {A : Type}.
  Variable d : A.
  Variable cmp : A -> A -> Z.
  (** A tuple in the heap, with srctape. *)
  Definition hcmp (x y : A * nat) : Z := cmp (fst x) (fst y).
  Notation dd := (d, 0).

  (** mergeonerun (tuplesort15.c:3185-3234), and the same loop spread over the calls of tuplesort_gettuple_common in state
      TSS_FINALMERGE (tuplesort15.c:2478-2528).  [fuel]: turns; the number of tuples is enough. *)
  Fixpoint mergeLoop (fuel : nat) (h : list (A * nat)) (tapes : list (list A)) : list A :=
    match fuel, h with
    | S f, (x, t) :: _ =>
        x :: match nth t tapes [] with
             | y :: r => mergeLoop f (heap_replace_top dd hcmp h (y, t)) (upd t r tapes)
             | [] => mergeLoop f (heap_delete_top dd hcmp h) tapes
             end
    | _, _ => []
    end.
  (** beginmerge (tuplesort15.c:3243-3263). *)
  Fixpoint beginmerge (t : nat) (runs : list (list A)) (h : list (A * nat)) : list (A * nat) * list (list A) :=
    match runs with
    | [] => (h, [])
    | [] :: rs => let '(h', ts) := beginmerge (S t) rs h in (h', [] :: ts)
    | (x :: r) :: rs => let '(h', ts) := beginmerge (S t) rs (heap_insert dd hcmp h (x, t)) in (h', r :: ts)
    end.
  Definition mergeRuns (runs : list (list A)) : list A :=
    let '(h, tapes) := beginmerge 0 runs [] in mergeLoop (length (concat runs)) h tapes.

  (** What is on a tape.  [image]: the bytes of a tuple in memory; [size]: rum_item_size (rumsort.c:284-294); [parse]: the
      tuple whose bytes these are. *)
  Variable image : A -> list byte.
  Variable parse : list byte -> A.
  Variable size : N.
  Variable randomAccess : bool.
  (** writetup_rum_internal (rumsort.c:296-320). *)
  Definition lenWord : list byte := le_bytes 4 (size + 4).
  Definition writetup (x : A) : list byte := lenWord ++ image x ++ (if randomAccess then lenWord else []).
  (** WRITETUP for each tuple, then markrunend (tuplesort15.c:3335-3355, 3848-3854). *)
  Definition writeRun (l : list A) : list byte := flat_map writetup l ++ le_bytes 4 0.
  (** LogicalTapeRead of that many bytes. *)
  Definition readBytes (n : nat) (t : list byte) : option (list byte * list byte) :=
    if n <=? length t then Some (firstn n t, skipn n t) else None.
  (** mergereadnext until it returns false (tuplesort15.c:3271-3282), getlen (tuplesort15.c:3834-3845), readtup_rum_internal
      (rumsort.c:335-369).  [None]: the tape ends within the run. *)
  Fixpoint readRun (fuel : nat) (t : list byte) : option (list A * list byte) :=
    match fuel with
    | O => None
    | S f =>
        match readBytes 4 t with
        | None => None
        | Some (w, t1) =>
            if (le_read w =? 0)%N then Some ([], t1)
            else
              match readBytes (N.to_nat size) t1 with
              | None => None
              | Some (im, t2) =>
                  match (if randomAccess then readBytes 4 t2 else Some ([], t2)) with
                  | None => None
                  | Some (_, t3) =>
                      match readRun f t3 with
                      | None => None
                      | Some (l, t4) => Some (parse im :: l, t4)
                      end
                  end
              end
        end
    end.
  Fixpoint readRuns (ts : list (list byte)) : option (list (list A)) :=
    match ts with
    | [] => Some []
    | t :: r =>
        match readRun (S (length t)) t, readRuns r with
        | Some (l, _), Some ls => Some (l :: ls)
        | _, _ => None
        end
    end.

  (** One pass of mergeruns (tuplesort15.c:3069-3161): each merge takes a run of every tape and writes one. *)
  Fixpoint mergePass (fuel k : nat) (runs : list (list byte)) : option (list (list byte)) :=
    match runs, fuel with
    | [], _ => Some []
    | _, O => None
    | _, S f =>
        match readRuns (firstn k runs), mergePass f k (skipn k runs) with
        | Some g, Some r => Some (writeRun (mergeRuns g) :: r)
        | _, _ => None
        end
    end.
  (** mergeruns: passes until the runs left are no more than the tapes; these are merged while they are read
      (tuplesort15.c:3125-3141; rum.so never asks for random access, rumget.c:2594-2595). *)
  Fixpoint passes (fuel k : nat) (runs : list (list byte)) : option (list A) :=
    match fuel with
    | O => None
    | S f =>
        if length runs <=? k then option_map mergeRuns (readRuns runs)
        else
          match mergePass (length runs) k runs with
          | None => None
          | Some runs' => passes f k runs'
          end
    end.
  (** The whole sort: [chunks] are the memory loads (puttuple_common and dumptuples, tuplesort15.c:2045, 3290-3370). *)
  Variable sortRun : (A -> A -> Z) -> list A -> list A.
  Definition spillSort (k : nat) (chunks : list (list A)) : option (list A) :=
    passes (S (length chunks)) k (map (fun l => writeRun (sortRun cmp l)) chunks).
End Spill.

(** The bytes of a RumSortItem (rumsort.h:32-39): address, recheck, a byte of padding, the distances.  Distances are
    given by their 64 bits. *)
Definition RumSortItemSize (nKeys : nat) : N := (8 + 8 * N.of_nat nKeys)%N.
Definition sortItem : Type := iptr * bool * list N.
Definition imageItem (pad : byte) (it : sortItem) : list byte :=
  let '(p, re, ds) := it in
  le_bytes 2 (N.shiftr (blk p) 16) ++ le_bytes 2 (N.land (blk p) 0xFFFF) ++ le_bytes 2 (off p) ++
  [if re then 1%N else 0%N; pad] ++ flat_map (le_bytes 8) ds.
Fixpoint parseDistances (n : nat) (b : list byte) : list N :=
  match n with O => [] | S m => le_read (firstn 8 b) :: parseDistances m (skipn 8 b) end.
Definition parseItem (nKeys : nat) (b : list byte) : sortItem :=
  (mkIp (N.lor (N.shiftl (le_read (firstn 2 b)) 16) (le_read (firstn 2 (skipn 2 b)))) (le_read (firstn 2 (skipn 4 b))),
   negb (le_read (firstn 1 (skipn 6 b)) =? 0)%N, parseDistances nKeys (skipn 8 b)).
