(** The accumulator of CREATE INDEX (rumbulk.c) and the build loop (ruminsert.c).
    Model file: no proofs.  The result of a build is modelled as the sequence of rumEntryInsert
    calls (key, rows) it makes. *)
From Verif Require Import Base Entries.
Local Open Scope N_scope.

(** ** order of visiting a row's keys *)
(** step computation of rumInsertBAEntries (rumbulk.c:229-237), uint32. *)
Definition ba_step (n : N) : N :=
  let s := n in
  let s := N.lor s (N.shiftr s 1) in
  let s := N.lor s (N.shiftr s 2) in
  let s := N.lor s (N.shiftr s 4) in
  let s := N.lor s (N.shiftr s 8) in
  let s := N.lor s (N.shiftr s 16) in
  N.shiftr s 1 + 1.
(** Inner for loop (rumbulk.c:243-245): [i] is an int held as its 32-bit pattern, so i >= 0 is
    i < 2^31. *)
Fixpoint ba_inner (fuel : nat) (n step i : N) : list N :=
  match fuel with
  | O => []
  | S f =>
      if (i <? n) && (i <? 2 ^ 31) then i :: ba_inner f n step ((i + N.shiftl step 1) mod 2 ^ 32) else []
  end.
(** while (step > 0) (rumbulk.c:239-248). *)
Fixpoint ba_outer (fuel : nat) (n step : N) : list N :=
  match fuel with
  | O => []
  | S f =>
      if 0 <? step then ba_inner (S (N.to_nat n)) n step (step - 1) ++ ba_outer f n (N.shiftr step 1) else []
  end.
(** The sequence of array indexes rumInsertBAEntries (rumbulk.c:218-249) passes on. *)
Definition ba_visit (n : N) : list N := if n =? 0 then [] else ba_outer 33 n (ba_step n).

Section Acc.
  Context {K A : Type}.
  Variable compareFn : N -> K -> K -> Z.
  Variable cmpA : A -> A -> Z.
  (** useAlternativeOrder, attrnAddToColumn (0 when there is none). *)
  Variables (useAlt : bool) (addTo : N).
  (** qsort/qsort_arg with a comparison function. *)
  Variable qsort : (item A -> item A -> Z) -> list (item A) -> list (item A).

  (** RumEntryAccumulator (rum.h: key, list, shouldSort). *)
  Record eacc := mkAcc { ea_key : ekey K; ea_list : list (item A); ea_sort : bool }.

  (** rumCombineData (rumbulk.c:33-71). *)
  Definition rumCombineData (eo : eacc) (en : item A) : eacc :=
    let sort :=
      if negb useAlt && negb (ea_sort eo) then
        (0 <? rumCompareItemPointers (ip (last (ea_list eo) en)) (ip en))%Z
      else ea_sort eo in
    mkAcc (ea_key eo) (ea_list eo ++ [en]) sort.
  (** New node of rumInsertBAEntry (rumbulk.c:172-195). *)
  Definition newEntry (k : ekey K) (it : item A) : eacc :=
    mkAcc k [it] (useAlt && (k_att k =? addTo)).
  (** rbt_insert (rumbulk.c:167-168).  The red-black tree is modelled as the list of its nodes in
      key order. *)
  Fixpoint rbt_insert (acc : list eacc) (k : ekey K) (it : item A) : list eacc :=
    match acc with
    | [] => [newEntry k it]
    | e :: r =>
        let c := rumCompareAttEntries compareFn k (ea_key e) in
        if (c =? 0)%Z then rumCombineData e it :: r
        else if (c <? 0)%Z then newEntry k it :: acc
        else e :: rbt_insert r k it
    end.
  (** rumInsertBAEntries (rumbulk.c:225-259). *)
  Definition rumInsertBAEntries (acc : list eacc) (tid : iptr) (att : N) (entries : list (@stored K A)) : list eacc :=
    fold_left (fun acc i =>
        match nth_error entries (N.to_nat i) with
        | Some (k, c, a) => rbt_insert acc (mkKey att k c) (mkItem tid a)
        | None => acc
        end)
      (ba_visit (N.of_nat (length entries))) acc.
  (** rumHeapTupleBulkInsert (ruminsert.c:491-550): the attached value of the addTo column comes
      from the attach column. *)
  Definition rumHeapTupleBulkInsert (acc : list eacc) (tid : iptr) (att : N) (entries : list (@stored K A))
      (outer : option A) : list eacc :=
    rumInsertBAEntries acc tid att
      (if att =? addTo then map (fun e => (fst e, outer)) entries else entries).

  (** A heap row as the build callback sees it: address, extracted keys of columns 1, 2, ...
      (rumExtractEntries of each), value of the attach column. *)
  Record hrow := mkRow { r_tid : iptr; r_cols : list (list (@stored K A)); r_attach : option A }.
  (** rumBuildCallback's column loop (ruminsert.c:572-576). *)
  Fixpoint bulk_cols (acc : list eacc) (r : hrow) (att : N) (cols : list (list (@stored K A))) : list eacc :=
    match cols with
    | [] => acc
    | es :: rest => bulk_cols (rumHeapTupleBulkInsert acc (r_tid r) att es (r_attach r)) r (att + 1) rest
    end.

  (** rumGetBAEntry (rumbulk.c:297-337). *)
  Definition rumGetBAEntry (e : eacc) : ekey K * list (item A) :=
    let l := ea_list e in
    (ea_key e,
     if (1 <? length l)%nat then
       if useAlt && (k_att (ea_key e) =? addTo) then qsort (compareRumItem true cmpA) l
       else if ea_sort e then qsort (fun a b => rumCompareItemPointers (ip a) (ip b)) l
       else l
     else l).
  (** rumBuildCallback and the final dump of rumbuild (ruminsert.c:545-605, 668-684): [flush] says
      after which rows the memory limit was reached. *)
  Fixpoint build_loop (acc : list eacc) (rows : list (hrow * bool)) : list (ekey K * list (item A)) :=
    match rows with
    | [] => map rumGetBAEntry acc
    | (r, flush) :: rest =>
        let acc := bulk_cols acc r 1 (r_cols r) in
        if flush : bool then map rumGetBAEntry acc ++ build_loop [] rest else build_loop acc rest
    end.
  Definition build_calls (rows : list (hrow * bool)) : list (ekey K * list (item A)) := build_loop [] rows.

  (** ruminsert (ruminsert.c:817-858) and rumHeapTupleInsert (764-809) of one row. *)
  Fixpoint insert_cols (r : hrow) (att : N) (cols : list (list (@stored K A))) : list (ekey K * list (item A)) :=
    match cols with
    | [] => []
    | es :: rest =>
        map (fun e => (mkKey att (fst (fst e)) (snd (fst e)), [mkItem (r_tid r) (if att =? addTo then r_attach r else snd e)])) es
        ++ insert_cols r (att + 1) rest
    end.
  Definition insert_calls (r : hrow) : list (ekey K * list (item A)) := insert_cols r 1 (r_cols r).
End Acc.
