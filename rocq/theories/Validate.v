(** Operator classes: what rumvalidate checks of them, what opening an index asks of them. *)
From Coq Require Import ZArith NArith List Bool.
Import ListNotations.
Local Open Scope Z_scope.

Definition oid := N.
(** Type OIDs (PostgreSQL's pg_type.dat). *)
Definition BOOLOID : oid := 16%N. Definition BYTEAOID : oid := 17%N. Definition INT2OID : oid := 21%N.
Definition INT4OID : oid := 23%N. Definition FLOAT4OID : oid := 700%N. Definition FLOAT8OID : oid := 701%N.
Definition TIMESTAMPOID : oid := 1114%N. Definition TIMESTAMPTZOID : oid := 1184%N. Definition ANYARRAYOID : oid := 2277%N.
Definition VOIDOID : oid := 2278%N. Definition INTERNALOID : oid := 2281%N. Definition TSVECTOROID : oid := 3614%N.
Definition TSQUERYOID : oid := 3615%N.

(** A pg_proc row: result, whether it returns a set, arguments; a pg_amproc row: left and right type, support number,
    function; a pg_operator row, and a pg_amop row: types, strategy, whether FOR ORDER BY, operator; a pg_opclass row
    (opckeytype 0: the same as opcintype). *)
Record proc := mkProc { pr_ret : oid; pr_retset : bool; pr_args : list oid }.
Record amproc := mkAmproc { ap_left : oid; ap_right : oid; ap_num : Z; ap_proc : proc }.
Record operator := mkOpr { opr_result : oid; opr_binary : bool; opr_left : oid; opr_right : oid }.
Record amop := mkAmop { ao_left : oid; ao_right : oid; ao_strategy : Z; ao_order : bool; ao_opr : operator }.
Record opclass := mkClass { opcintype : oid; opckeytype : oid }.

Section Validate.
  (** IsBinaryCoercible(source, target). *)
  Variable coercible : oid -> oid -> bool.

  (** check_amproc_signature with exact = false (PostgreSQL's amvalidate.c): the loop over the [maxargs] types given. *)
  Fixpoint argsFit (types args : list oid) : bool :=
    match types, args with
    | t :: types', a :: args' => coercible t a && argsFit types' args'
    | _, _ => true
    end.
  Definition check_amproc_signature (f : proc) (ret : oid) (minargs maxargs : nat) (types : list oid) : bool :=
    N.eqb (pr_ret f) ret && negb (pr_retset f) && (minargs <=? length (pr_args f))%nat && (length (pr_args f) <=? maxargs)%nat &&
    argsFit (firstn maxargs types) (pr_args f).
  (** check_amop_signature (PostgreSQL's amvalidate.c). *)
  Definition check_amop_signature (o : operator) (ret left right : oid) : bool :=
    N.eqb (opr_result o) ret && opr_binary o && coercible left (opr_left o) && coercible right (opr_right o).

  (** opcintype_overload, opckeytype, opckeytype_overload (rumvalidate.c:62-73). *)
  Definition overload (t : oid) : oid := if N.eqb t TIMESTAMPTZOID then TIMESTAMPOID else t.
  Definition keytype (c : opclass) : oid := if N.eqb (opckeytype c) 0 then opcintype c else opckeytype c.

  (** The switch on the support number (rumvalidate.c:115-222). *)
  Definition check_support (c : opclass) (num : Z) (f : proc) : bool :=
    let ty := opcintype c in let tyo := overload ty in let key := keytype c in let keyo := overload key in
    let I := INTERNALOID in
    match num with
    | 1 => check_amproc_signature f INT4OID 2 2 [key; key]
    | 2 => check_amproc_signature f I 2 5 [tyo; I; I; I; I]
    | 3 => if N.eqb ty TSVECTOROID then check_amproc_signature f I 5 7 [TSQUERYOID; I; INT2OID; I; I; I; I]
           else if N.eqb ty TSQUERYOID then check_amproc_signature f I 5 7 [TSVECTOROID; I; INT2OID; I; I; I; I]
           else check_amproc_signature f I 5 7 [tyo; I; INT2OID; I; I; I; I]
    | 4 => if N.eqb ty TSQUERYOID then check_amproc_signature f BOOLOID 6 8 [I; INT2OID; TSVECTOROID; INT4OID; I; I; I; I]
           else if N.eqb ty TSVECTOROID || N.eqb ty TIMESTAMPOID || N.eqb ty TIMESTAMPTZOID || N.eqb ty ANYARRAYOID
                then check_amproc_signature f BOOLOID 6 8 [I; INT2OID; tyo; INT4OID; I; I; I; I]
           else check_amproc_signature f BOOLOID 6 8 [I; INT2OID; I; INT4OID; I; I; I; I]
    | 5 => check_amproc_signature f INT4OID 4 4 [keyo; keyo; INT2OID; I]
    | 6 => check_amproc_signature f VOIDOID 1 1 [I]
    | 7 => check_amproc_signature f BOOLOID 8 8 [I; INT2OID; ty; INT4OID; I; I; I; I]
    | 8 => if N.eqb ty TSVECTOROID || N.eqb ty ANYARRAYOID
           then check_amproc_signature f FLOAT8OID 9 9 [I; INT2OID; ty; INT4OID; I; I; I; I; I; I]
           else check_amproc_signature f FLOAT8OID 3 3 [ty; ty; INT2OID]
    | 9 => check_amproc_signature f FLOAT8OID 3 3 [tyo; tyo; INT2OID]
    | 10 => check_amproc_signature f BYTEAOID 2 2 [I; I]
    | _ => false
    end.
  (** One round of the loop over the support functions (rumvalidate.c:87-234). *)
  Definition check_proc (c : opclass) (p : amproc) : bool :=
    let same := N.eqb (ap_left p) (ap_right p) in
    if negb (N.eqb (ap_left p) (opcintype c)) then same else same && check_support c (ap_num p) (ap_proc p).
  (** One round of the loop over the operators (rumvalidate.c:236-296). *)
  Definition check_operator (o : amop) : bool :=
    negb ((ao_strategy o <? 1) || (63 <? ao_strategy o)) &&
    (if ao_order o
     then check_amop_signature (ao_opr o) (if N.eqb (ao_left o) TSVECTOROID then FLOAT4OID else FLOAT8OID) (ao_left o) (ao_right o)
     else check_amop_signature (ao_opr o) BOOLOID (ao_left o) (ao_right o)).
  (** functionset of the group whose both types are the class's (PostgreSQL's identify_opfamily_groups, and
      rumvalidate.c:298-318); 0 if there is no such group. *)
  Definition functionset (c : opclass) (procs : list amproc) : N :=
    fold_left (fun s p => if N.eqb (ap_left p) (opcintype c) && N.eqb (ap_right p) (opcintype c) && (0 <? ap_num p) && (ap_num p <? 64)
                          then N.setbit s (Z.to_N (ap_num p)) else s) procs 0%N.
  (** The loop over the support numbers, and GIN_CONSISTENT_PROC once more (rumvalidate.c:320-345). *)
  Definition complete (set : N) : bool :=
    forallb (fun i => N.testbit set i || N.eqb i 1 || N.eqb i 5 || (6 <=? i)%N) [1; 2; 3; 4; 5; 6; 7; 8; 9; 10]%N && N.testbit set 4.
  (** rumvalidate (rumvalidate.c:34-353). *)
  Definition rumvalidate (c : opclass) (procs : list amproc) (oprs : list amop) : bool :=
    forallb (check_proc c) procs && forallb check_operator oprs && complete (functionset c procs).
End Validate.

(** ** Using a class *)
(** index_getprocid: the relation's support functions are those registered for the class's type on both sides. *)
Definition index_getproc (c : opclass) (procs : list amproc) (n : Z) : option proc :=
  option_map ap_proc (find (fun p => N.eqb (ap_left p) (opcintype c) && N.eqb (ap_right p) (opcintype c) && (ap_num p =? n)) procs).
(** What initRumState keeps of one column's class (rumutil.c:345-424); index_getprocinfo raises an error if the function
    is missing ([None]).  [hasCmp]: the type has a default comparison (rumutil.c:316-346). *)
Record support := mkSupport { canPartialMatch : bool; canPreConsistent : bool; canOrdering : bool; ordering_nargs : nat; canOuterOrdering : bool; canJoinAddInfo : bool }.
Definition isSome {T} (o : option T) : bool := match o with Some _ => true | None => false end.
Definition initSupport (c : opclass) (procs : list amproc) (hasCmp : bool) : option support :=
  let get := index_getproc c procs in
  if (isSome (get 1) || hasCmp) && isSome (get 2) && isSome (get 3) && isSome (get 4) then
    Some (mkSupport (isSome (get 5)) (isSome (get 7)) (isSome (get 8)) (match get 8 with Some f => length (pr_args f) | None => O end) (isSome (get 9)) (isSome (get 10)))
  else None.
(** What rumscan makes of an ORDER BY on a column that is not attached (rumscan.c:175-246): an ordering by the current key,
    an ordering by the attached values of the query's keys, or an error.  [searched]: numbers of entries of the search keys on
    the column, in order; an ordering by the current key uses the first of them. *)
Inductive orderKind := ByCurrentKey | ByAddInfo | OrderError.
Definition initOrdering (s : support) (nQueryValues : Z) (byval : bool) (searched : list Z) : orderKind :=
  if canOrdering s && (ordering_nargs s =? 3)%nat then
    if negb (nQueryValues =? 1) then OrderError
    else if negb byval then OrderError
    else match searched with [] => OrderError | n :: _ => if 1 <? n then OrderError else if n =? 0 then OrderError else ByCurrentKey end
  else if negb (canOrdering s) then OrderError else ByAddInfo.
