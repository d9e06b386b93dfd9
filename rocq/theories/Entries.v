(** Index keys: comparison across columns and null categories, and key extraction from a row
    value.  Model file: no proofs. *)
From Verif Require Import Base.
Local Open Scope Z_scope.

(** RumNullCategory (rum.h:203-215). *)
Inductive category := CatEmptyQuery | CatNormKey | CatNullKey | CatEmptyItem | CatNullItem.
Definition cat_code (c : category) : Z :=
  match c with
  | CatEmptyQuery => -1 | CatNormKey => 0 | CatNullKey => 1 | CatEmptyItem => 2 | CatNullItem => 3
  end.

(** rumCompareEntries (rumutil.c:637-654).  The datum of a non-regular key is never read. *)
Definition rumCompareEntries {K} (compareFn : K -> K -> Z) (a : K) (ca : category) (b : K) (cb : category) : Z :=
  if negb (cat_code ca =? cat_code cb) then (if cat_code ca <? cat_code cb then -1 else 1)
  else if negb (cat_code ca =? cat_code CatNormKey) then 0
  else compareFn a b.

(** An entry-tree key: column number, datum, category. *)
Record ekey (K : Type) := mkKey { k_att : N; k_val : K; k_cat : category }.
Arguments mkKey {K}. Arguments k_att {K}. Arguments k_val {K}. Arguments k_cat {K}.

(** rumCompareAttEntries (rumutil.c:659-669); [compareFn att] is the column's comparison. *)
Definition rumCompareAttEntries {K} (compareFn : N -> K -> K -> Z) (a b : ekey K) : Z :=
  if negb (k_att a =? k_att b)%N then (if (k_att a <? k_att b)%N then -1 else 1)
  else rumCompareEntries (compareFn (k_att a)) (k_val a) (k_cat a) (k_val b) (k_cat b).

Section Extract.
  Context {K A : Type}.
  Variable compareFn : K -> K -> Z.
  (** keyEntryData (rumutil.c:681-687): datum, isnull, addInfo ([None] for addInfoIsNull). *)
  Record keyEntry := mkEntry { e_datum : K; e_isnull : bool; e_add : option A }.

  (** cmpEntries (rumutil.c:694-725) without the haveDups side effect. *)
  Definition cmpEntries (a b : keyEntry) : Z :=
    if e_isnull a then (if e_isnull b then 0 else 1)
    else if e_isnull b then -1
    else compareFn (e_datum a) (e_datum b).

  (** The duplicate-removal loop (rumutil.c:871-889); [prev] is keydata[i-1]. *)
  Fixpoint dedup_loop (prev : keyEntry) (l : list keyEntry) : list keyEntry :=
    match l with
    | [] => []
    | x :: r => if cmpEntries prev x =? 0 then dedup_loop x r else x :: dedup_loop x r
    end.
  Definition dedup (l : list keyEntry) : list keyEntry :=
    match l with [] => [] | x :: r => x :: dedup_loop x r end.

  (** A stored key with its category and attached value. *)
  Definition stored : Type := K * category * option A.
  Definition stored_of (e : keyEntry) : stored :=
    (e_datum e, if e_isnull e then CatNullKey else CatNormKey, e_add e).

  (** rumExtractEntries (rumutil.c:734-888).  [value]: [None] is a NULL column value, otherwise
      what the operator class's extractValue returned.  [qsort] stands for qsort_arg and
      [haveDups] for the flag its comparisons leave behind; [dflt] is the datum 0 of placeholders.
      Simplification: the arrays nullFlags, addInfo, addInfoIsNull that an operator class may
      leave unset are taken as filled with the defaults of rumutil.c:813-840. *)
  Definition rumExtractEntries (qsort : list keyEntry -> list keyEntry) (haveDups : list keyEntry -> bool) (dflt : K)
      (value : option (list keyEntry)) : list stored :=
    match value with
    | None => [(dflt, CatNullItem, None)]
    | Some [] => [(dflt, CatEmptyItem, None)]
    | Some [e] => [stored_of e]
    | Some l =>
        let keydata := qsort l in
        map stored_of (if haveDups l then dedup keydata else keydata)
    end.
End Extract.
