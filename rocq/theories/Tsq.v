(** Full-text queries: evaluation of a tsquery against what the index knows about a row
    (rum_ts_utils.c).  Model file: no proofs. *)
From Verif Require Import Base Codec PosCodec.
Local Open Scope Z_scope.

(** QueryOperand (PostgreSQL tsearch/ts_type.h): word, 4-bit weight mask (0 = no restriction),
    prefix flag. *)
Record operand := mkOp { o_word : list N; o_weight : N; o_prefix : bool }.

(** A TSQuery.  PostgreSQL keeps it as an array of QueryItems in prefix order: an operator is
    followed by its right argument (curitem + 1), then by its left one
    (curitem + qoperator.left).  Here it is the tree that array spells; [items] gives the array
    back and the evaluators below carry the array index of the node they stand on.  Not modelled:
    arrays that spell no tree (tsqueryin and tsqueryrecv reject them). *)
Inductive tsq :=
| QVal (o : operand)
| QNot (q : tsq)
| QAnd (l r : tsq)
| QOr (l r : tsq)
| QPhrase (dist : Z) (l r : tsq).

(** Number of QueryItems of a query. *)
Fixpoint qsize (q : tsq) : nat :=
  match q with
  | QVal _ => 1
  | QNot a => S (qsize a)
  | QAnd l r | QOr l r | QPhrase _ l r => S (qsize r + qsize l)
  end%nat.
(** The QueryItem array, operators as [None]. *)
Fixpoint items (q : tsq) : list (option operand) :=
  match q with
  | QVal o => [Some o]
  | QNot a => None :: items a
  | QAnd l r | QOr l r | QPhrase _ l r => None :: items r ++ items l
  end.

(** RumTernaryValue (rum_ts_utils.c:52-62). *)
Inductive tern := TNo | TYes | TMaybe.

(** ExecPhraseData (PostgreSQL tsearch/ts_utils.h): npos is the length of [e_pos]; a
    WordEntryPos is 16 bits. *)
Record edata := mkE { e_pos : list N; e_neg : bool; e_width : Z }.
Definition e_zero : edata := mkE [] false 0.

(** Test of an operand's weight mask against a stored entry (rum_ts_utils.c:312). *)
Definition weight_ok (o : operand) (post : N) : bool :=
  (o_weight o =? 0)%N || N.odd (N.shiftr (o_weight o) (WEP_GETWEIGHT post)).

(** RumChkVal (rum_ts_utils.c:117-126), the fields the callbacks read. *)
Record chkval := mkChk {
  cv_map : list nat;                     (* map_item_operand *)
  cv_check : list bool;
  cv_add : list (option (list byte));    (* addInfo; None is addInfoIsNull *)
  cv_recheckPhrase : bool }.

(** The decoding loop of checkcondition_rum (rum_ts_utils.c:292-297,307,338).  A buffer that is
    not a position list gives [] here; no theorem covers such a buffer. *)
Definition decoded (bs : list byte) : list N :=
  match read_positions bs with Some l => l | None => [] end.

(** checkcondition_rum (rum_ts_utils.c:258-349).  [i] is the array index of the item, [want]
    says that the caller passes a data pointer. *)
Definition checkcondition_rum (cv : chkval) (i : nat) (val : operand) (want : bool) : tern * edata :=
  let j := nth i (cv_map cv) O in
  if negb (nth j (cv_check cv) false) then (TNo, e_zero)
  else match nth j (cv_add cv) None with
  | Some positions =>
      if cv_recheckPhrase cv then (TMaybe, e_zero)
      else if want then
        let k := filter (weight_ok val) (decoded positions) in
        (match k with [] => TNo | _ => TYes end, mkE k false 0)
      else if (o_weight val =? 0)%N then (TYes, e_zero)
      else
        let mask := fold_left (fun m post => N.lor m (N.shiftl 1 (WEP_GETWEIGHT post))) (decoded positions) 0%N in
        (if (N.land mask (o_weight val) =? 0)%N then TNo else TYes, e_zero)
  | None => (TMaybe, e_zero)
  end.

(** The merge loop of rum_phrase_output (rum_ts_utils.c:390-464).  [eL], [eR], [eB] are the
    TSPO_L_ONLY, TSPO_R_ONLY, TSPO_BOTH bits.  [keep] is the store of a positive output_pos into
    the 16-bit array (lines 444-456). *)
Definition INT_MAX : Z := 2147483647.
Definition keep (output_pos : Z) (rest : list N) : list N :=
  if 0 <? output_pos then Z.to_N (output_pos mod 65536) :: rest else rest.
Definition posat (off : Z) (p : N) : Z := Z.of_N (WEP_GETPOS p) + off.
Fixpoint phrase_merge (eL eR eB : bool) (Loff Roff : Z) (L : list N) : list N -> list N :=
  fix go (R : list N) : list N :=
    match L, R with
    | [], [] => []
    | [], r :: R' =>
        if negb eR then []
        else
          let Rpos := posat Roff r in
          if INT_MAX <? Rpos then go R'            (* Lpos < Rpos: cannot happen, Lindex++ has no effect *)
          else if INT_MAX =? Rpos then keep (if eB then Rpos else 0) (go R')
          else keep Rpos (go R')
    | l :: L', [] =>
        if negb eL then []
        else keep (posat Loff l) (phrase_merge eL eR eB Loff Roff L' R)
    | l :: L', r :: R' =>
        let Lpos := posat Loff l in
        let Rpos := posat Roff r in
        if Lpos <? Rpos then keep (if eL then Lpos else 0) (phrase_merge eL eR eB Loff Roff L' R)
        else if Lpos =? Rpos then keep (if eB then Rpos else 0) (phrase_merge eL eR eB Loff Roff L' R')
        else keep (if eR then Rpos else 0) (go R')
    end.

(** rum_phrase_output (rum_ts_utils.c:381-473).  Simplification: with data == NULL the code stops
    at the first emitted position; the value returned is the same. *)
Definition rum_phrase_output (eL eR eB : bool) (Loff Roff : Z) (L R : list N) : tern * list N :=
  let out := phrase_merge eL eR eB Loff Roff L R in
  (match out with [] => TNo | _ => TYes end, out).

(** The four calls of rum_phrase_output for AND and PHRASE (rum_ts_utils.c:633-671): the result
    and the data left for the caller, whose width was set before. *)
Definition phrase_and (L R : edata) (Loff Roff width : Z) : tern * edata :=
  if e_neg L && e_neg R then
    let '(_, out) := rum_phrase_output true true true Loff Roff (e_pos L) (e_pos R) in
    (TYes, mkE out true width)
  else if e_neg L then
    let '(t, out) := rum_phrase_output false true false Loff Roff (e_pos L) (e_pos R) in (t, mkE out false width)
  else if e_neg R then
    let '(t, out) := rum_phrase_output true false false Loff Roff (e_pos L) (e_pos R) in (t, mkE out false width)
  else
    let '(t, out) := rum_phrase_output false false true Loff Roff (e_pos L) (e_pos R) in (t, mkE out false width).

(** The four calls for OR (rum_ts_utils.c:714-752). *)
Definition phrase_or (L R : edata) (Loff Roff width : Z) : tern * edata :=
  if e_neg L && e_neg R then
    let '(_, out) := rum_phrase_output false false true Loff Roff (e_pos L) (e_pos R) in (TYes, mkE out true width)
  else if e_neg L then
    let '(_, out) := rum_phrase_output true false false Loff Roff (e_pos L) (e_pos R) in (TYes, mkE out true width)
  else if e_neg R then
    let '(_, out) := rum_phrase_output false true false Loff Roff (e_pos L) (e_pos R) in (TYes, mkE out true width)
  else
    let '(t, out) := rum_phrase_output true true true Loff Roff (e_pos L) (e_pos R) in (t, mkE out false width).

(** Flags of the two executors (TS_EXEC_CALC_NOT, TS_EXEC_PHRASE_NO_POS, TS_EXEC_IN_NEG:
    rum_ts_utils.c:32-48,186-190). *)
Record tflags := mkF { f_calc_not : bool; f_no_pos : bool; f_in_neg : bool }.

(** rum_phrase_execute (rum_ts_utils.c:521-760).  Simplification: a data pointer is always passed
    (the outermost call passes NULL, which changes what is stored, not what is returned). *)
Fixpoint rum_phrase_execute (chk : nat -> operand -> bool -> tern * edata) (fl : tflags)
    (i : nat) (q : tsq) : tern * edata :=
  match q with
  | QVal o => chk i o true
  | QNot a =>
      if negb (f_calc_not fl) then (TYes, mkE [] true 0)
      else
        let '(t, d) := rum_phrase_execute chk fl (S i) a in
        match t with
        | TNo => (TYes, mkE (e_pos d) true (e_width d))
        | TYes =>
            match e_pos d with
            | _ :: _ => (TYes, mkE (e_pos d) (negb (e_neg d)) (e_width d))
            | [] => (TNo, mkE [] false (e_width d))
            end
        | TMaybe => (TMaybe, d)
        end
  | QPhrase dist l r =>
      let '(lm, L) := rum_phrase_execute chk fl (S i + qsize r) l in
      match lm with
      | TNo => (TNo, e_zero)
      | _ =>
          let '(rm, R) := rum_phrase_execute chk fl (S i) r in
          match lm, rm with
          | _, TNo => (TNo, e_zero)
          | TMaybe, _ | _, TMaybe => (TMaybe, e_zero)
          | _, _ =>
              if f_no_pos fl then (TMaybe, e_zero)
              else phrase_and L R (dist + e_width R) 0 (dist + e_width L + e_width R)
          end
      end
  | QAnd l r =>
      let '(lm, L) := rum_phrase_execute chk fl (S i + qsize r) l in
      match lm with
      | TNo => (TNo, e_zero)
      | _ =>
          let '(rm, R) := rum_phrase_execute chk fl (S i) r in
          match lm, rm with
          | _, TNo => (TNo, e_zero)
          | TMaybe, _ | _, TMaybe => (TMaybe, e_zero)
          | _, _ =>
              let maxwidth := Z.max (e_width L) (e_width R) in
              phrase_and L R (maxwidth - e_width L) (maxwidth - e_width R) maxwidth
          end
      end
  | QOr l r =>
      let '(lm, L) := rum_phrase_execute chk fl (S i + qsize r) l in
      let '(rm, R) := rum_phrase_execute chk fl (S i) r in
      match lm, rm with
      | TNo, TNo => (TNo, e_zero)
      | TMaybe, _ | _, TMaybe => (TMaybe, e_zero)
      | _, _ =>
          let L := match lm with TNo => mkE (e_pos L) (e_neg L) 0 | _ => L end in
          let R := match rm with TNo => mkE (e_pos R) (e_neg R) 0 | _ => R end in
          let maxwidth := Z.max (e_width L) (e_width R) in
          phrase_or L R (maxwidth - e_width L) (maxwidth - e_width R) maxwidth
      end
  end.

(** rum_TS_execute (rum_ts_utils.c:778-875). *)
Fixpoint rum_TS_execute (chk : nat -> operand -> bool -> tern * edata) (fl : tflags)
    (i : nat) (q : tsq) : tern :=
  match q with
  | QVal o =>
      if f_in_neg fl && negb (o_weight o =? 0)%N && negb (o_weight o =? 15)%N then TMaybe
      else fst (chk i o false)
  | QNot a =>
      if negb (f_calc_not fl) then TYes
      else match rum_TS_execute chk (mkF (f_calc_not fl) (f_no_pos fl) true) (S i) a with
           | TNo => TYes | TYes => TNo | TMaybe => TMaybe
           end
  | QAnd l r =>
      let lm := rum_TS_execute chk fl (S i + qsize r) l in
      match lm with
      | TNo => TNo
      | _ => match rum_TS_execute chk fl (S i) r with TNo => TNo | TYes => lm | TMaybe => TMaybe end
      end
  | QOr l r =>
      let lm := rum_TS_execute chk fl (S i + qsize r) l in
      match lm with
      | TYes => TYes
      | _ => match rum_TS_execute chk fl (S i) r with TNo => lm | TYes => TYes | TMaybe => TMaybe end
      end
  | QPhrase _ _ _ =>
      match fst (rum_phrase_execute chk fl i q) with
      | TNo => TNo
      | TYes => TYes
      | TMaybe => if f_no_pos fl then TMaybe else TNo
      end
  end.

(** rum_tsquery_consistent (rum_ts_utils.c:877-920): the returned bool and *recheck.  The empty
    query (size 0) is the [None] case. *)
Definition rum_tsquery_consistent (map : list nat) (check : list bool) (add : list (option (list byte)))
    (query : option tsq) : bool * bool :=
  match query with
  | None => (false, false)
  | Some q =>
      let res := rum_TS_execute (checkcondition_rum (mkChk map check add false)) (mkF true false false) 0 q in
      (match res with TNo => false | _ => true end, match res with TMaybe => true | _ => false end)
  end.

(** rum_tsquery_timestamp_consistent (rum_ts_utils.c:921-962). *)
Definition rum_tsquery_timestamp_consistent (map : list nat) (check : list bool)
    (add : list (option (list byte))) (query : option tsq) : bool * bool :=
  match query with
  | None => (false, false)
  | Some q =>
      let res := rum_TS_execute (checkcondition_rum (mkChk map check add true)) (mkF true true false) 0 q in
      (match res with TNo => false | _ => true end, match res with TMaybe => true | _ => false end)
  end.

(** pre_checkcondition_rum (rum_ts_utils.c:203-221, the branch for PostgreSQL 13 and later).  The
    state threaded through is *need_recheck. *)
Definition pre_checkcondition_rum (map : list nat) (check : list bool) (need : bool) (i : nat)
    (val : operand) (want : bool) : tern * bool :=
  let need := need || negb (o_weight val =? 0)%N || want in
  let j := nth i map O in
  (if need then TMaybe else if nth j check false then TYes else TNo, need).

(** PostgreSQL's TS_phrase_execute under TS_EXEC_SKIP_NOT, as called by TS_execute from the
    pre-filter (rum_ts_utils.c:244-250).  Not in /repo: written from PostgreSQL's
    utils/adt/tsvector_op.c, of which rum_phrase_execute is a copy.  pre_checkcondition_rum never
    fills position data, so the data of a YES is always "everywhere" (npos = 0, negate = true),
    whose combinations are again "everywhere"; only the ternary value is kept here. *)
Fixpoint pg_phrase_execute (chk : bool -> nat -> operand -> bool -> tern * bool) (need : bool)
    (i : nat) (q : tsq) : tern * bool :=
  match q with
  | QVal o => chk need i o true
  | QNot _ => (TYes, need)
  | QAnd l r | QPhrase _ l r =>
      let '(lm, need) := pg_phrase_execute chk need (S i + qsize r) l in
      match lm with
      | TNo => (TNo, need)
      | _ =>
          let '(rm, need) := pg_phrase_execute chk need (S i) r in
          (match lm, rm with _, TNo => TNo | TMaybe, _ | _, TMaybe => TMaybe | _, _ => TYes end, need)
      end
  | QOr l r =>
      let '(lm, need) := pg_phrase_execute chk need (S i + qsize r) l in
      let '(rm, need) := pg_phrase_execute chk need (S i) r in
      (match lm, rm with TNo, TNo => TNo | TMaybe, _ | _, TMaybe => TMaybe | _, _ => TYes end, need)
  end.

(** PostgreSQL's TS_execute with TS_EXEC_PHRASE_NO_POS | TS_EXEC_SKIP_NOT (same source). *)
Fixpoint pg_TS_execute (chk : bool -> nat -> operand -> bool -> tern * bool) (need : bool)
    (i : nat) (q : tsq) : tern * bool :=
  match q with
  | QVal o => chk need i o false
  | QNot _ => (TYes, need)
  | QAnd l r =>
      let '(lm, need) := pg_TS_execute chk need (S i + qsize r) l in
      match lm with
      | TNo => (TNo, need)
      | _ =>
          let '(rm, need) := pg_TS_execute chk need (S i) r in
          (match rm with TNo => TNo | TYes => lm | TMaybe => TMaybe end, need)
      end
  | QOr l r =>
      let '(lm, need) := pg_TS_execute chk need (S i + qsize r) l in
      match lm with
      | TYes => (TYes, need)
      | _ =>
          let '(rm, need) := pg_TS_execute chk need (S i) r in
          (match rm with TNo => lm | TYes => TYes | TMaybe => TMaybe end, need)
      end
  | QPhrase _ _ _ => pg_phrase_execute chk need i q
  end.

(** rum_tsquery_pre_consistent (rum_ts_utils.c:223-255). *)
Definition rum_tsquery_pre_consistent (map : list nat) (check : list bool) (query : option tsq) : bool :=
  match query with
  | None => false
  | Some q => match fst (pg_TS_execute (pre_checkcondition_rum map check) false 0 q) with TNo => false | _ => true end
  end.

(** tsCompareString without prefix (PostgreSQL tsvector_op.c): byte order, a proper prefix comes
    first.  Used by compareQueryOperand (rum_ts_utils.c:1066-1079). *)
Fixpoint word_compare (a b : list N) : Z :=
  match a, b with
  | [], [] => 0
  | [], _ => -1
  | _, [] => 1
  | x :: a', y :: b' => if (x =? y)%N then word_compare a' b' else if (x <? y)%N then -1 else 1
  end.

(** The operands of the array, in array order (rum_ts_utils.c:1098-1106). *)
Definition operands (q : tsq) : list operand :=
  flat_map (fun it => match it with Some o => [o] | None => [] end) (items q).

(** Duplicate removal of SortAndUniqItems (rum_ts_utils.c:1114-1127): [prev] is *prevptr. *)
Fixpoint uniq_from (prev : operand) (l : list operand) : list operand :=
  match l with
  | [] => [prev]
  | o :: r => if word_compare (o_word o) (o_word prev) =? 0 then uniq_from prev r else prev :: uniq_from o r
  end.
(** SortAndUniqItems (rum_ts_utils.c:1088-1130).  [qsort] is the C library's sort with
    compareQueryOperand; nothing is assumed here about the order of equal words. *)
Definition SortAndUniqItems (qsort : list operand -> list operand) (q : tsq) : list operand :=
  match operands q with
  | [] | [_] => operands q
  | l => match qsort l with [] => [] | o :: r => uniq_from o r end
  end.

(** Search for the entry of an item (rum_ts_utils.c:1329-1345): index of the first entry with the
    item's word; [None] is elog(ERROR, "Operand not found!"). *)
Fixpoint find_operand (ents : list operand) (w : list N) : option nat :=
  match ents with
  | [] => None
  | e :: r => if word_compare (o_word e) w =? 0 then Some O else option_map S (find_operand r w)
  end.
Fixpoint fill_map (ents : list operand) (its : list (option operand)) : option (list nat) :=
  match its with
  | [] => Some []
  | None :: r => option_map (cons O) (fill_map ents r)
  | Some o :: r =>
      match find_operand ents (o_word o), fill_map ents r with
      | Some j, Some m => Some (j :: m)
      | _, _ => None
      end
  end.

(** rum_extract_tsquery_internal (rum_ts_utils.c:1276-1350): per entry the key made by [build]
    (build_tsquery_entry :1355-1363, or build_tsquery_hash_entry :1368-1377) and its
    partial-match flag; the item map.  The search mode is not modelled (tsquery_requires_match is
    PostgreSQL's). *)
Definition rum_extract_tsquery_internal {K} (build : list N -> K) (qsort : list operand -> list operand)
    (q : tsq) : option (list (K * bool) * list nat) :=
  let ents := SortAndUniqItems qsort q in
  match fill_map ents (items q) with
  | Some m => Some (map (fun e => (build (o_word e), o_prefix e)) ents, m)
  | None => None
  end.

(** rum_extract_tsvector_internal (rum_ts_utils.c:1140-1190): per lexeme the key made by [build]
    (build_tsvector_entry :1196-1203 or build_tsvector_hash_entry :1209-1217) and the attached
    value, NULL when the lexeme has no positions. *)
Definition rum_extract_tsvector_internal {K} (build : list N -> K)
    (vector : list (list N * option (list N))) : list (K * option (list byte)) :=
  map (fun '(w, ps) => (build w, option_map compress_pos ps)) vector.

(** Joining the attached values of one row over the keys a partial match visits
    (entryGetNextItem, rumget.c:1250-1301): NULLs give way to values, values are joined with
    rum_ts_join_pos in visiting order. *)
Definition join_add (a b : option (list byte)) : option (option (list byte)) :=
  match a, b with
  | Some x, Some y => match rum_ts_join_pos x y with Some z => Some (Some z) | None => None end
  | Some x, None => Some (Some x)
  | None, _ => Some b
  end.
Fixpoint join_all (acc : option (list byte)) (l : list (option (list byte))) : option (option (list byte)) :=
  match l with
  | [] => Some acc
  | x :: r => match join_add acc x with Some a => join_all a r | None => None end
  end.
