(** The array operator class rum_anyarray_ops (rum_arr_utils.c): key extraction, search, similarity and distance.
    Model file: no proofs. *)
From Verif Require Import Base Codec Entries ScanEntry Scan IndexScan.
From Coq Require Import NArith ZArith Bool List SpecFloat.
Import ListNotations.
Local Open Scope Z_scope.

(** ** float8 arithmetic: IEEE binary64 with rounding to nearest even (the standard library's SpecFloat) *)
Definition float8 : Type := spec_float.
Definition fmul : float8 -> float8 -> float8 := SFmul 53 1024.
Definition fadd : float8 -> float8 -> float8 := SFadd 53 1024.
Definition fsub : float8 -> float8 -> float8 := SFsub 53 1024.
Definition fdiv : float8 -> float8 -> float8 := SFdiv 53 1024.
Definition fsqrt : float8 -> float8 := SFsqrt 53 1024.
(** (float8) of an int32. *)
Definition of_int (z : Z) : float8 := binary_normalize 53 1024 z 0 false.
(** x >= y in C: false when one of them is a NaN. *)
Definition fge (x y : float8) : bool := SFleb y x.
Definition feq (x y : float8) : bool := SFeqb x y.
Definition fzero : float8 := S754_zero false.
Definition finf : float8 := S754_infinity false.

(** Int32GetDatum of a length, DatumGetInt32 of the stored value. *)
Definition int32_datum (n : Z) : datum := DVal (Z.to_N n).
Definition datum_int32 (d : datum) : Z :=
  match d with DVal n => let m := Z.of_N n mod 2 ^ 32 in if m <? 2 ^ 31 then m else m - 2 ^ 32 | _ => 0 end.

(** SimilarityType (rum.h:874-879). *)
Inductive simType := SmtCosine | SmtJaccard | SmtOverlap.
(** getSimilarity (rum_arr_utils.c:863-888); [na], [nb] are sa->nelems and sb->nelems. *)
Definition getSimilarity (t : simType) (na nb intersection : Z) : float8 :=
  match t with
  | SmtCosine => fdiv (of_int intersection) (fsqrt (fmul (of_int na) (of_int nb)))
  | SmtJaccard => fdiv (of_int intersection) (fsub (fadd (of_int na) (of_int nb)) (of_int intersection))
  | SmtOverlap => of_int intersection
  end.
(** DIST_FROM_SML (rum_arr_utils.c:79-80). *)
Definition distFromSml (sml : float8) : float8 := if feq sml fzero then finf else fdiv (of_int 1) sml.

(** The operators of the class (rum_init.sql:1579-1594, rum_arr_utils.c:31-36). *)
Inductive aop := AOverlap | AContains | AContained | AEqual | ASimilar.

(** ** SimpleArray *)
(** An array value is the list of its elements: the code refuses arrays of several dimensions and NULL
    elements (CHECKARRVALID, rum_arr_utils.c:54-68), which are not modelled. *)
Section Elems.
  Context {K : Type}.
  (** [cmp] is the element type's default comparison, [qsort] stands for qsort_arg. *)
  Variable cmp : K -> K -> Z.
  Variable qsort : (K -> K -> Z) -> list K -> list K.

  (** sortSimpleArray, ascending (rum_arr_utils.c:752-765). *)
  Definition sortSimpleArray (s : list K) : list K := if (1 <? length s)%nat then qsort cmp s else s.
  (** uniqSimpleArray with onlyDuplicate = false (rum_arr_utils.c:762-816): [dr] is the last kept element. *)
  Fixpoint uniq_loop (dr : K) (tmp : list K) : list K :=
    match tmp with
    | [] => []
    | x :: rest => if negb (cmp x dr =? 0) then x :: uniq_loop x rest else uniq_loop dr rest
    end.
  Definition uniqSimpleArray (s : list K) : list K := match s with [] => [] | x :: rest => x :: uniq_loop x rest end.
  Definition elems (a : list K) : list K := uniqSimpleArray (sortSimpleArray a).
  Definition nelems (a : list K) : Z := Z.of_nat (length (elems a)).

  (** getNumOfIntersect (rum_arr_utils.c:828-861), the loop on the sorted arrays. *)
  Fixpoint intersect_loop (a : list K) : list K -> Z :=
    fix inner (b : list K) : Z :=
      match a, b with
      | x :: a', y :: b' =>
          let c := cmp x y in
          if c <? 0 then intersect_loop a' b
          else if 0 <? c then inner b'
          else 1 + intersect_loop a' b'
      | _, _ => 0
      end.
  Definition getNumOfIntersect (a b : list K) : Z := intersect_loop (elems a) (elems b).

  (** ** The SQL functions *)
  (** rum_anyarray_similar, the operator % (rum_arr_utils.c:470-508). *)
  Definition anyarray_similar (t : simType) (threshold : float8) (a b : list K) : bool :=
    match a, b with
    | [], _ | _, [] => false
    | _, _ => fge (getSimilarity t (nelems a) (nelems b) (getNumOfIntersect a b)) threshold
    end.
  (** rum_anyarray_distance, the operator <=> (rum_arr_utils.c:510-548). *)
  Definition anyarray_distance (t : simType) (a b : list K) : float8 :=
    match a, b with
    | [], _ | _, [] => fzero
    | _, _ => distFromSml (getSimilarity t (nelems a) (nelems b) (getNumOfIntersect a b))
    end.

  (** ** Support functions *)
  (** rum_extract_anyarray (rum_arr_utils.c:172-208): the number of elements beside each of them. *)
  Definition extract_anyarray (a : list K) : list (@keyEntry K datum) :=
    map (fun x => Entries.mkEntry x false (Some (int32_datum (nelems a)))) (elems a).
  (** rum_extract_anyarray_query (rum_arr_utils.c:211-269): the search mode (GIN_SEARCH_MODE_DEFAULT 0,
      INCLUDE_EMPTY 1, ALL 2); the keys are [elems]. *)
  Definition array_mode (op : aop) (nentries : Z) : Z :=
    match op with
    | AOverlap | ASimilar => 0
    | AContains => if 0 <? nentries then 0 else 2
    | AContained => 1
    | AEqual => if 0 <? nentries then 0 else 1
    end.
End Elems.

(** check[i], and addInfo[i] where it is not NULL (it is NULL where check[i] is not set). *)
Definition isSet (o : option (option datum)) : bool := match o with Some _ => true | None => false end.
Definition info (o : option (option datum)) : option Z := match o with Some (Some d) => Some (datum_int32 d) | _ => None end.
(** intersection and nentries of rum_anyarray_consistent and rum_anyarray_ordering (rum_arr_utils.c:369-387,
    442-456): the set checks, and the first addInfo (-1 without any). *)
Definition checks (v : list (option (option datum))) : Z := Z.of_nat (length (filter isSet v)).
Fixpoint firstInfo (v : list (option (option datum))) : Z :=
  match v with [] => -1 | o :: rest => match info o with Some n => n | None => firstInfo rest end end.

(** rum_anyarray_consistent (rum_arr_utils.c:277-419): (result, recheck).  nullFlags are never set: arrays with
    NULLs are refused. *)
Definition anyarray_consistent (t : simType) (threshold : float8) (op : aop) (v : list (option (option datum))) : bool * bool :=
  let nkeys := Z.of_nat (length v) in
  match op with
  | AOverlap => (existsb isSet v, false)
  | AContains => (forallb isSet v, false)
  | AContained => (forallb (fun o => match info o with Some n => negb (nkeys <? n) | None => true end) v, true)
  | AEqual => (forallb (fun o => isSet o && match info o with Some n => n =? nkeys | None => true end) v, true)
  | ASimilar => (if 0 <? checks v then fge (getSimilarity t (firstInfo v) nkeys (checks v)) threshold else false, false)
  end.
(** rum_anyarray_ordering (rum_arr_utils.c:426-468). *)
Definition anyarray_ordering (t : simType) (v : list (option (option datum))) : float8 :=
  if 0 <? checks v then distFromSml (getSimilarity t (firstInfo v) (Z.of_nat (length v)) (checks v)) else distFromSml fzero.

(** A condition "column [ac_att] op array". *)
Record acond (K : Type) := mkAcond { ac_att : N; ac_op : aop; ac_arr : list K }.
Arguments mkAcond {K}. Arguments ac_att {K}. Arguments ac_op {K}. Arguments ac_arr {K}.

(** What the operator class makes of a condition, and of an ordering column <=> array: no partial match, no
    pre-consistent function.  [qv_sub] is only used for attached columns of scalar classes. *)
Definition arrayVals {K} (cmp : K -> K -> Z) qsort (a : list K) : list (qval K) :=
  map (fun x => mkQval x false None (fun _ => 0)) (elems cmp qsort a).
Definition arrayClause {K} (cmp : N -> K -> K -> Z) qsort t threshold (s : acond K) : clause K :=
  mkClause (ac_att s) false (arrayVals (cmp (ac_att s)) qsort (ac_arr s)) (array_mode (ac_op s) (nelems (cmp (ac_att s)) qsort (ac_arr s)))
    (anyarray_consistent t threshold (ac_op s)) None.
(** GIN_SEARCH_MODE_DEFAULT for the distance (rum_arr_utils.c:258-261); no consistent function is called. *)
Definition arrayOrderClause {K} (cmp : N -> K -> K -> Z) qsort (att : N) (a : list K) : clause K :=
  mkClause att false (arrayVals (cmp att) qsort a) 0 (fun _ => (true, false)) None.
