(** What the array operators mean (C29, C30). *)
From Verif Require Import Base Ord Codec Entries EntriesSpec Bulk BulkSpec Array.
From Coq Require Import NArith ZArith Bool List Permutation Sorted SpecFloat.
Import ListNotations.
Local Open Scope Z_scope.

(** The similarity of arrays with [na] and [nb] different elements, [n] of them in common, in float8 arithmetic (IEEE
    binary64 of the standard library, numbers converted exactly): cosine n / sqrt (na * nb), Jaccard n / (na + nb - n),
    overlap n. *)
Definition similarity (t : simType) (na nb n : Z) : spec_float :=
  let num z := binary_normalize 53 1024 z 0 false in
  match t with
  | SmtCosine => SFdiv 53 1024 (num n) (SFsqrt 53 1024 (SFmul 53 1024 (num na) (num nb)))
  | SmtJaccard => SFdiv 53 1024 (num n) (SFsub 53 1024 (SFadd 53 1024 (num na) (num nb)) (num n))
  | SmtOverlap => num n
  end.

Section Spec.
  Context {K : Type}.
  Variable cmp : K -> K -> Z.
  Definition has (a : list K) (x : K) : Prop := exists y, In y a /\ cmp x y = 0.
  Definition overlaps (a b : list K) : Prop := exists x, has a x /\ has b x.
  Definition contains (a b : list K) : Prop := forall x, In x b -> has a x.
  Definition same (a b : list K) : Prop := Forall2 (fun x y => cmp x y = 0) a b.
  (** How many different elements an array has: the length of a list without repetition of the same
      elements. *)
  Definition distinct (a : list K) (n : Z) : Prop :=
    exists u, n = Z.of_nat (length u) /\ ForallOrdPairs (fun x y => cmp x y <> 0) u /\ forall x, has u x <-> has a x.
  (** How many different elements two arrays have in common. *)
  Definition in_common (a b : list K) (n : Z) : Prop :=
    exists u, n = Z.of_nat (length u) /\ ForallOrdPairs (fun x y => cmp x y <> 0) u /\ forall x, has u x <-> has a x /\ has b x.
  (** a % b: neither is empty, and the similarity reaches the threshold. *)
  Definition similar (t : simType) (threshold : float8) (a b : list K) : Prop :=
    a <> [] /\ b <> [] /\ exists na nb n, distinct a na /\ distinct b nb /\ in_common a b n /\ SFleb threshold (similarity t na nb n) = true.
  (** a <=> b for non-empty arrays: infinity without a common element or with similarity 0, otherwise
      1 / similarity. *)
  Definition far (t : simType) (a b : list K) (d : float8) : Prop :=
    exists na nb n, distinct a na /\ distinct b nb /\ in_common a b n /\
      d = if (n =? 0) || SFeqb (similarity t na nb n) (S754_zero false) then S754_infinity false
        else SFdiv 53 1024 (binary_normalize 53 1024 1 0 false) (similarity t na nb n).

  Definition array_op (t : simType) (threshold : float8) (op : aop) (a b : list K) : Prop :=
    match op with
    | AOverlap => overlaps a b
    | AContains => contains a b
    | AContained => contains b a
    | AEqual => same a b
    | ASimilar => similar t threshold a b
    end.
End Spec.

(** Conditions whose rows the executor has to check again. *)
Definition checked_again (op : aop) : bool := match op with AContained | AEqual => true | _ => false end.

(** Column [att] of the table is an array column of the class: the index keys of row [r] in it are what
    extraction makes of the array [arr r] ([None]: NULL). *)
Definition array_column {K} (compareFn : N -> K -> K -> Z) (cmp : N -> K -> K -> Z) qsort (dflt : K)
  (table : list (@hrow K datum)) (att : N) (arr : @hrow K datum -> option (list K)) : Prop :=
  (1 <= att)%N /\ total_cmp (cmp att) /\ (forall x y, cmp att x y = 0 <-> compareFn att x y = 0) /\
  exists qsortE haveDups, sorts (compareFn att) qsortE haveDups /\
    forall r, In r table -> nth_error (r_cols r) (N.to_nat att - 1) =
      Some (rumExtractEntries (compareFn att) qsortE haveDups dflt (option_map (extract_anyarray (cmp att) qsort) (arr r))).
(** The condition holds of the row. *)
Definition array_holds {K} (cmp : N -> K -> K -> Z) t threshold (arr : N -> @hrow K datum -> option (list K)) (r : @hrow K datum) (s : acond K) : Prop :=
  exists a, arr (ac_att s) r = Some a /\ array_op (cmp (ac_att s)) t threshold (ac_op s) a (ac_arr s).
