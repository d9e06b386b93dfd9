(** The in-memory sort of tuplesort: qsort_tuple (qsort_tuple.c).  Model file: no proofs.
    An array of SortTuples is a list; pointers into it are indexes.  [d]: what a read outside of the array would give
    (the theorems hold for every [d]).  Simplification: of two partitions the code sorts the smaller one first, the
    model sorts the left one first; they are disjoint parts of the array. *)
From Coq Require Import ZArith Arith List.
Import ListNotations.

Section Qsort.
  Context {A : Type}.
  Variable d : A.
  Variable cmp : A -> A -> Z.

  Definition upd (i : nat) (x : A) (l : list A) : list A := firstn i l ++ x :: skipn (S i) l.
  Definition at' (l : list A) (i : nat) : A := nth i l d.
  (** swap (qsort_tuple.c:66-71). *)
  Definition swap (i j : nat) (l : list A) : list A := upd j (at' l i) (upd i (at' l j) l).
  (** vecswap, swapfunc (qsort_tuple.c:55-64, 73): [n] swaps of neighbouring elements from [i] and [j] on. *)
  Fixpoint vecswap (i j n : nat) (l : list A) : list A :=
    match n with O => l | S n' => vecswap (S i) (S j) n' (swap i j l) end.
  (** med3_tuple (qsort_tuple.c:74-82). *)
  Definition med3_tuple (l : list A) (a b c : nat) : nat :=
    if (cmp (at' l a) (at' l b) <? 0)%Z
    then (if (cmp (at' l b) (at' l c) <? 0)%Z then b else if (cmp (at' l a) (at' l c) <? 0)%Z then c else a)
    else (if (0 <? cmp (at' l b) (at' l c))%Z then b else if (cmp (at' l a) (at' l c) <? 0)%Z then a else c).

  (** The sort of up to six elements (qsort_tuple.c:101-107). *)
  Fixpoint sink (pl : nat) (l : list A) : list A :=
    match pl with
    | O => l
    | S p => if (0 <? cmp (at' l p) (at' l pl))%Z then sink p (swap pl p l) else l
    end.
  Definition small (l : list A) : list A := fold_left (fun l pm => sink pm l) (seq 1 (length l - 1)) l.
  (** The test whether the array is in order already (qsort_tuple.c:108-119). *)
  Definition presorted (l : list A) : bool := forallb (fun pm => negb (0 <? cmp (at' l (pm - 1)) (at' l pm))%Z) (seq 1 (length l - 1)).
  (** The choice of the pivot (qsort_tuple.c:120-135). *)
  Definition pivot (l : list A) : nat :=
    let n := length l in
    let pm := n / 2 in
    if 7 <? n then
      let '(pl, pm, pn) :=
        if 40 <? n then
          let e := n / 8 in
          (med3_tuple l 0 e (2 * e), med3_tuple l (pm - e) pm (pm + e), med3_tuple l (n - 1 - 2 * e) (n - 1 - e) (n - 1))
        else (0, pm, n - 1) in
      med3_tuple l pl pm pn
    else pm.

  (** The two inner loops of the partition (qsort_tuple.c:141-150, 151-160); the pivot is element 0.  [fuel]: number of
      turns; the theorems show that the number of elements left plus one is enough. *)
  Fixpoint scanUp (fuel : nat) (l : list A) (pa pb pc : nat) : list A * nat * nat :=
    match fuel with
    | O => (l, pa, pb)
    | S f =>
        if pb <=? pc then
          let r := cmp (at' l pb) (at' l 0) in
          if (r <=? 0)%Z then (if (r =? 0)%Z then scanUp f (swap pa pb l) (S pa) (S pb) pc else scanUp f l pa (S pb) pc)
          else (l, pa, pb)
        else (l, pa, pb)
    end.
  Fixpoint scanDown (fuel : nat) (l : list A) (pb pc pd : nat) : list A * nat * nat :=
    match fuel with
    | O => (l, pc, pd)
    | S f =>
        if pb <=? pc then
          let r := cmp (at' l pc) (at' l 0) in
          if (0 <=? r)%Z then (if (r =? 0)%Z then scanDown f (swap pc pd l) pb (pc - 1) (pd - 1) else scanDown f l pb (pc - 1) pd)
          else (l, pc, pd)
        else (l, pc, pd)
    end.
  (** The partition (qsort_tuple.c:139-166). *)
  Fixpoint partition (fuel : nat) (l : list A) (pa pb pc pd : nat) : list A * nat * nat * nat * nat :=
    match fuel with
    | O => (l, pa, pb, pc, pd)
    | S f =>
        let '(l1, pa1, pb1) := scanUp (S (length l)) l pa pb pc in
        let '(l2, pc2, pd2) := scanDown (S (length l)) l1 pb1 pc pd in
        if pc2 <? pb1 then (l2, pa1, pb1, pc2, pd2)
        else partition f (swap pb1 pc2 l2) pa1 (S pb1) (pc2 - 1) pd2
    end.

  (** qsort_tuple (qsort_tuple.c:84-200).  [fuel]: depth of the recursion; the theorems show that the number of
      elements plus one is enough. *)
  Fixpoint qsort_tuple (fuel : nat) (l : list A) : list A :=
    match fuel with
    | O => l
    | S f =>
        let n := length l in
        if n <? 7 then small l
        else if presorted l then l
        else
          let '(l1, pa, pb, pc, pd) := partition (S n) (swap 0 (pivot l) l) 1 1 (n - 1) (n - 1) in
          let d1 := Nat.min pa (pb - pa) in
          let l2 := vecswap 0 (pb - d1) d1 l1 in
          let d1 := Nat.min (pd - pc) (n - pd - 1) in
          let l3 := vecswap pb (n - d1) d1 l2 in
          let d1 := pb - pa in
          let d2 := pd - pc in
          let left := firstn d1 l3 in
          let right := skipn (n - d2) l3 in
          (if 1 <? d1 then qsort_tuple f left else left) ++
          firstn (n - d2 - d1) (skipn d1 l3) ++
          (if 1 <? d2 then qsort_tuple f right else right)
    end.
  Definition sort_tuples (l : list A) : list A := qsort_tuple (S (length l)) l.
End Qsort.
