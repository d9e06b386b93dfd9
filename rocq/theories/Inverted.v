(** The operator class rum_tsquery_ops (rumtsquery.c): indexed tsqueries searched by a tsvector.  Model file: no
    proofs. *)
From Verif Require Import Base Codec Entries ScanEntry Scan IndexScan Array.
From Coq Require Import NArith ZArith Bool List.
Import ListNotations.
Local Open Scope Z_scope.

(** A tsquery as the tree its items stand for (the left operand at item + left, the right one at item + 1).
    [weight]: the bits of the allowed position weights, 0 for any.  Operands are [K] (compared by length and
    bytes in the code).  An empty tsquery (size 0) is not modelled: the code reads past its end. *)
Inductive tsquery (K : Type) :=
| TVal (x : K) (weight : N) (prefix : bool)
| TNot (q : tsquery K)
| TAnd (l r : tsquery K)
| TOr (l r : tsquery K)
| TPhrase (distance : N) (l r : tsquery K).
Arguments TVal {K}. Arguments TNot {K}. Arguments TAnd {K}. Arguments TOr {K}. Arguments TPhrase {K}.
(** A tsvector: the words with the weights (0-3) of their positions. *)
Definition tsvector (K : Type) : Type := list (K * list N).

(** QueryItemWrap (rumtsquery.c:27-38) before calc_wraps: a word or an operator ([true]: OP_AND) with its
    operands.  The field [not] of operators is never set. *)
Inductive wrap (K : Type) := WVal (x : K) (not : bool) | WOp (isAnd : bool) (ops : list (wrap K)).
Arguments WVal {K}. Arguments WOp {K}.
(** ... and after it: operators have [num] and [sum]. *)
Inductive cwrap (K : Type) := CVal (x : K) (not : bool) | COp (num : N) (sum : Z) (isAnd : bool) (ops : list (cwrap K)).
Arguments CVal {K}. Arguments COp {K}.

(** encode_varbyte (rumtsquery.c:212-225); a uint32 takes at most five rounds. *)
Fixpoint encode_loop (fuel : nat) (val : N) : list N :=
  match fuel with
  | O => []
  | S f => if (0x7F <? val)%N then N.lor 0x80 (N.land val 0x7F) :: encode_loop f (N.shiftr val 7) else [N.modulo val 256]
  end.
Definition encode_varbyte (val : N) : list N := encode_loop 5 (val mod 2 ^ 32)%N.
(** decode_varbyte (rumtsquery.c:230-263); [None]: reads past the end. *)
Fixpoint decode_loop (more : nat) (shift val : N) (p : list N) : option (N * list N) :=
  match p with
  | [] => None
  | c :: p' =>
      let val' := (N.lor val (N.shiftl (N.land c 0x7F) shift) mod 2 ^ 32)%N in
      match more with
      | O => Some (val', p')
      | S m => if negb (N.land c 0x80 =? 0)%N then decode_loop m (shift + 7) val' p' else Some (val', p')
      end
  end.
Definition decode_varbyte (p : list N) : option (N * list N) := decode_loop 4 0 0 p.

(** The second number of a path step (rumtsquery.c:322-330). *)
Definition sumVal (sum : Z) (not : bool) : N :=
  let s := (N.shiftl (Z.abs_N sum) 2 mod 2 ^ 32)%N in
  let s := if sum <? 0 then N.lor s 2 else s in
  if not then N.lor s 1 else s.

Section Extract.
  Context {K : Type}.
  Variable eqb : K -> K -> bool.

  (** make_query_item_wrap (rumtsquery.c:60-114): what is added to the parent's operands; [None]: ERROR. *)
  Fixpoint make_query_item_wrap (q : tsquery K) (parent : option bool) (not : bool) : option (list (wrap K)) :=
    let node (oper : bool) (left right : option bool -> option (list (wrap K))) :=
      let oper := if not then negb oper else oper in
      match parent with
      | Some o => if Bool.eqb oper o
          then match left parent, right parent with Some l, Some r => Some (l ++ r) | _, _ => None end
          else match left (Some oper), right (Some oper) with Some l, Some r => Some [WOp oper (l ++ r)] | _, _ => None end
      | None => match left (Some oper), right (Some oper) with Some l, Some r => Some [WOp oper (l ++ r)] | _, _ => None end
      end in
    match q with
    | TVal x _ prefix => if prefix then None else Some [WVal x not]
    | TNot q' => make_query_item_wrap q' parent (negb not)
    | TAnd l r => node true (fun p => make_query_item_wrap l p not) (fun p => make_query_item_wrap r p not)
    | TOr l r => node false (fun p => make_query_item_wrap l p not) (fun p => make_query_item_wrap r p not)
    | TPhrase _ _ _ => None
    end.

  (** calc_wraps (rumtsquery.c:123-159): numbers the operators and sets [sum]; returns the next number.  The number of words it also returns only sizes arrays. *)
  Definition isNot (w : wrap K) : bool := match w with WVal _ n => n | WOp _ _ => false end.
  Definition startSum (isAnd : bool) (ops : list (wrap K)) : Z :=
    let notCount := Z.of_nat (length (filter isNot ops)) in
    if isAnd then notCount + 1 - Z.of_nat (length ops) else notCount.
  Fixpoint calc_wraps (w : wrap K) (num : N) : cwrap K * N :=
    match w with
    | WVal x not => (CVal x not, num)
    | WOp isAnd ops =>
        let '(ops', num') := (fix calcs (ops : list (wrap K)) (n : N) : list (cwrap K) * N :=
          match ops with
          | [] => ([], n)
          | o :: r => let '(o', n1) := calc_wraps o n in let '(r', n2) := calcs r n1 in (o' :: r', n2)
          end) ops (num + 1)%N in
        (COp num (startSum isAnd ops) isAnd ops', num')
    end.

  (** check_allnegative (rumtsquery.c:165-204). *)
  Fixpoint check_allnegative (w : cwrap K) : bool :=
    match w with
    | CVal _ not => not
    | COp _ _ true ops => forallb check_allnegative ops
    | COp _ _ false ops => existsb check_allnegative ops
    end.

  (** The path of a word (rumtsquery.c:317-337): [ups] are num and sum of its ancestors, the nearest first; only the
      word itself can be negated. *)
  Fixpoint pathUp (not : bool) (ups : list (N * Z)) : list N :=
    match ups with
    | [] => []
    | (num, sum) :: rest => encode_varbyte num ++ encode_varbyte (sumVal sum not) ++ pathUp false rest
    end.
  Definition pathBytes (not : bool) (ups : list (N * Z)) : list N :=
    match ups with
    | [] => if not then encode_varbyte 1 ++ encode_varbyte (N.lor 4 1) else []
    | _ => pathUp not ups
    end.
  (** The entries extracted so far: looked up by word, a new path is added behind the paths of the word
      (rumtsquery.c:283-315). *)
  Fixpoint addPath (x : K) (p : list N) (ctx : list (K * list N)) : list (K * list N) :=
    match ctx with
    | [] => [(x, p)]
    | (y, b) :: rest => if eqb x y then (y, b ++ p) :: rest else (y, b) :: addPath x p rest
    end.
  (** extract_wraps (rumtsquery.c:277-351). *)
  Fixpoint extract_wraps (w : cwrap K) (ups : list (N * Z)) (ctx : list (K * list N)) : list (K * list N) :=
    match w with
    | CVal x not => addPath x (pathBytes not ups) ctx
    | COp num sum _ ops =>
        (fix extracts (ops : list (cwrap K)) (ctx : list (K * list N)) : list (K * list N) :=
          match ops with [] => ctx | o :: r => extracts r (extract_wraps o ((num, sum) :: ups) ctx) end) ops ctx
    end.
  (** ruminv_extract_tsquery (rumtsquery.c:354-404); [dflt] is the value of the entry whose nullFlag is set. *)
  Definition extract_tsquery (dflt : K) (q : tsquery K) : option (list (@keyEntry K datum)) :=
    match make_query_item_wrap q None false with
    | Some [w] =>
        let c := fst (calc_wraps w 1) in
        Some (map (fun e => Entries.mkEntry (fst e) false (Some (DVar V4U (snd e)))) (extract_wraps c [] []) ++
          (if check_allnegative c then [Entries.mkEntry dflt true None] else []))
    | _ => None
    end.
End Extract.

(** ** Search *)
(** TmpNode (rumtsquery.c:451-456); parent -2: not seen, -1: no parent yet. *)
Record tmpNode := mkNode { t_sum : Z; t_parent : Z; t_not : bool }.
Definition unseen : tmpNode := mkNode 0 (-2) false.
Definition nth_node (nodes : list tmpNode) (i : N) : tmpNode := nth (N.to_nat i) nodes unseen.
Definition set_node (nodes : list tmpNode) (i : N) (t : tmpNode) : list tmpNode :=
  firstn (N.to_nat i) nodes ++ t :: skipn (S (N.to_nat i)) nodes.

(** The loop over the path of one key (rumtsquery.c:504-551).  [nodes] are the first lastIndex elements of the
    array of 256; [None]: a read or write outside of an array. *)
Fixpoint path_loop (fuel : nat) (p : list N) (child : option N) (nodes : list tmpNode) : option (list tmpNode) :=
  match p with
  | [] => Some nodes
  | _ =>
      match fuel with
      | O => None
      | S f =>
          match decode_varbyte p with
          | None => None
          | Some (num, p1) =>
              match decode_varbyte p1 with
              | None => None
              | Some (sv, p2) =>
                  let not := negb (N.land sv 1 =? 0)%N in
                  let s := Z.of_N (N.shiftr sv 2) in
                  let sum := if negb (N.land sv 2 =? 0)%N then - s else s in
                  if (num =? 0)%N || (256 <? num)%N then None
                  else
                    let index := (num - 1)%N in
                    let nodes := match child with Some c => set_node nodes c (mkNode (t_sum (nth_node nodes c)) (Z.of_N index) not) | None => nodes end in
                    let nodes := nodes ++ repeat unseen (N.to_nat num - length nodes) in
                    let nodes := if t_parent (nth_node nodes index) =? -2 then set_node nodes index (mkNode sum (-1) false) else nodes in
                    let t := nth_node nodes index in
                    let nodes := match child with
                      | None => set_node nodes index (mkNode (if not then t_sum t - 1 else t_sum t + 1) (t_parent t) (t_not t))
                      | Some _ => nodes end in
                    path_loop f p2 (if (index =? 0)%N then None else Some index) nodes
              end
          end
      end
  end.
(** The loop over the keys except the last one (rumtsquery.c:486-552): (res, allFalse, nodes). *)
Fixpoint keys_loop (v : list (option (option datum))) (allFalse : bool) (nodes : list tmpNode) : option (bool * bool * list tmpNode) :=
  match v with
  | [] => Some (false, allFalse, nodes)
  | None :: rest => keys_loop rest allFalse nodes
  | Some (Some (DVar _ [])) :: _ => Some (true, false, nodes)
  | Some (Some (DVar _ p)) :: rest =>
      match path_loop (length p) p None nodes with Some nodes' => keys_loop rest false nodes' | None => None end
  | Some _ :: _ => None
  end.
(** The loop over the nodes (rumtsquery.c:561-581), from node [i - 1] down. *)
Fixpoint nodes_loop (i : nat) (nodes : list tmpNode) : bool :=
  match i with
  | O => false
  | S j =>
      let t := nth_node nodes (N.of_nat j) in
      if negb (t_parent t =? -2) && (0 <? t_sum t) then
        if t_parent t =? -1 then true
        else
          let parent := Z.to_N (t_parent t) in
          let u := nth_node nodes parent in
          nodes_loop j (set_node nodes parent (mkNode (t_sum u + (if t_not t then -1 else 1)) (t_parent u) (t_not u)))
      else nodes_loop j nodes
  end.
(** ruminv_tsvector_consistent (rumtsquery.c:461-585): recheck is never asked for. *)
Definition tsvector_consistent (v : list (option (option datum))) : option bool :=
  match keys_loop (removelast v) true [] with
  | None => None
  | Some (res, allFalse, nodes) =>
      if allFalse && isSet (last v None) then Some true else Some (res || nodes_loop (length nodes) nodes)
  end.
(** ruminv_extract_tsvector (rumtsquery.c:407-451) as query keys: the words, then the NULL key; none for an empty
    tsvector. *)
Definition tsvectorVals {K} (dflt : K) (doc : tsvector K) : list (qval K) :=
  match doc with
  | [] => []
  | _ => map (fun w => mkQval (fst w) false None (fun _ => 0)) doc ++ [mkQval dflt true None (fun _ => 0)]
  end.
(** The condition "tsquery column [att] @@ tsvector": GIN_SEARCH_MODE_DEFAULT.  Where the code leaves its arrays or
    raises an error the model's answer is false; the theorems show when this does not happen. *)
Definition invertedClause {K} (dflt : K) (att : N) (doc : tsvector K) : clause K :=
  mkClause att false (tsvectorVals dflt doc) 0
    (fun v => (match tsvector_consistent v with Some b => b | None => false end, false)) None.
