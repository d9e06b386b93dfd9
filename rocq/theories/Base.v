(** Base types of the model: heap row addresses, index items, comparators.
    Model file: no proofs. *)
From Coq Require Export List NArith ZArith Bool Arith.
Export ListNotations.
Local Open Scope Z_scope.

(** PostgreSQL ItemPointerData: 32-bit block, 16-bit offset (rum.h:126-137 macros
    RumItemPointerGetBlockNumber / RumItemPointerGetOffsetNumber).
    Simplification: bi_hi/bi_lo are kept as one 32-bit block number. *)
Record iptr := mkIp { blk : N; off : N }.

(** RumItem (rum.h:170-175).  addInfoIsNull = true is [add = None]; when it is true the
    addInfo datum is never read. *)
Record item (A : Type) := mkItem { ip : iptr; add : option A }.
Arguments mkItem {A} _ _.
Arguments ip {A} _.
Arguments add {A} _.

(** Field ranges of ItemPointerData (uint32, uint16). *)
Definition ip_ok (p : iptr) : Prop := (blk p < 2 ^ 32 /\ off p < 2 ^ 16)%N.
Definition ip_okb (p : iptr) : bool := ((blk p <? 2 ^ 32) && (off p <? 2 ^ 16))%N.

(** RumItemPointerSetMin / RumItemSetMin (rum.h:150-151,177-183). *)
Definition ip_min : iptr := mkIp 0 0.
Definition item_min {A} : item A := mkItem ip_min None.

(** rumCompareItemPointers (rumdatapage.c:307-324). *)
Definition rumCompareItemPointers (a b : iptr) : Z :=
  if (blk a =? blk b)%N then
    if (off a =? off b)%N then 0
    else if (off b <? off a)%N then 1 else -1
  else if (blk b <? blk a)%N then 1 else -1.

(** compareRumItem (rumdatapage.c:326-360).  [alt] stands for
    state->useAlternativeOrder && attno == state->attrnAddToColumn;
    [cmpA] is the btree comparison function of the attached column. *)
Definition compareRumItem {A} (alt : bool) (cmpA : A -> A -> Z) (a b : item A) : Z :=
  if alt then
    match add a, add b with
    | Some x, Some y =>
        let res := cmpA x y in
        if res =? 0 then rumCompareItemPointers (ip a) (ip b) else res
    | None, Some _ => -1
    | None, None => rumCompareItemPointers (ip a) (ip b)
    | Some _, None => 1
    end
  else rumCompareItemPointers (ip a) (ip b).

(** rumMergeRumItems (rumdatapage.c:367-408): the three loops over two pointers.
    On a tie the element of [b] is kept and the one of [a] dropped. *)
Fixpoint rumMergeRumItems {T} (cmp : T -> T -> Z) (a : list T) : list T -> list T :=
  fix go (b : list T) : list T :=
    match a, b with
    | [], _ => b
    | _, [] => a
    | x :: a', y :: b' =>
        let c := cmp x y in
        if 0 <? c then y :: go b'
        else if c =? 0 then y :: rumMergeRumItems cmp a' b'
        else x :: rumMergeRumItems cmp a' b
    end.
