(** Relevance of a document to a tsquery: cover density (rum_ts_utils.c:1438-2075), both as the operator
    tsvector <=> tsquery computes it and as the index does from attached positions.  Model file: no proofs.
    Simplification: double and float4 are rational numbers, without rounding; [cast] stands for the final
    conversions to float4, [ln] for log(). *)
From Verif Require Import Base Codec PosCodec Tsq TextSearch.
From Coq Require Import QArith NArith ZArith Bool List.
Import ListNotations.
Local Open Scope Z_scope.

(** DocRepresentation (rum_ts_utils.c:128-146): one occurrence of a query word.  [d_ops]: the elements of operandData it
    stands for (data.item.item, or data.key.keyn); [d_addr]: the address that goes into the cover's key
    (data.item.item, or data.key.item_first). *)
Record docr := mkDocr { d_ops : list nat; d_addr : Z; d_class : N; d_pos : Z }.
(** operandData (rum_ts_utils.c:148-152): [None]: operandexist is false. *)
Definition opdata := nat -> option N.
Definition no_ops : opdata := fun _ => None.
(** WEP_SETPOS and WEP_SETWEIGHT on qro->pos (rum_ts_utils.c:1510-1511, 1521-1522, 1570-1571). *)
Definition wep (x : docr) : N := WEP_SETWEIGHT (Z.to_N (d_pos x)) (d_class x).

(** checkcondition_QueryOperand (rum_ts_utils.c:1457-1483).  [slot]: map_item_operand, or the item itself. *)
Definition checkcondition_QueryOperand (slot : nat -> nat) (ops : opdata) (i : nat) (val : operand) (want : bool) : tern * edata :=
  match ops (slot i) with
  | Some p => (TYes, if want then mkE [p] false 0 else e_zero)
  | None => (TNo, e_zero)
  end.
(** PostgreSQL's TS_execute (tsvector_op.c; rum_TS_execute is a copy of it with a test for weights under NOT added);
    [skipNot]: TS_EXEC_SKIP_NOT. *)
Fixpoint pg_execute (chk : nat -> operand -> bool -> tern * edata) (skipNot : bool) (i : nat) (q : tsq) : tern :=
  match q with
  | QVal o => fst (chk i o false)
  | QNot a => if skipNot then TYes else match pg_execute chk skipNot (S i) a with TNo => TYes | TYes => TNo | TMaybe => TMaybe end
  | QAnd l r =>
      let lm := pg_execute chk skipNot (S i + qsize r) l in
      match lm with TNo => TNo | _ => match pg_execute chk skipNot (S i) r with TNo => TNo | TYes => lm | TMaybe => TMaybe end end
  | QOr l r =>
      let lm := pg_execute chk skipNot (S i + qsize r) l in
      match lm with TYes => TYes | _ => match pg_execute chk skipNot (S i) r with TNo => lm | TYes => TYes | TMaybe => TMaybe end end
  | QPhrase _ _ _ => match fst (rum_phrase_execute chk (mkF (negb skipNot) false false) i q) with TYes => TYes | _ => TNo end
  end.
Definition isYes (t : tern) : bool := match t with TNo => false | _ => true end.

Section Cover.
  (** [keyed]: map_item_operand is set (rum_tsquery_distance). *)
  Variables (keyed : bool) (slot : nat -> nat) (q : tsq).
  Definition execute (skipNot : bool) (ops : opdata) : bool := isYes (pg_execute (checkcondition_QueryOperand slot ops) skipNot 0 q).
  (** Marking an occurrence on the way up (rum_ts_utils.c:1506-1524) and on the way down (:1554-1573); on the way down
      the position is not stored when map_item_operand is set. *)
  Definition markUp (x : docr) (ops : opdata) : opdata := fun j => if existsb (Nat.eqb j) (d_ops x) then Some (wep x) else ops j.
  Definition markDown (x : docr) (ops : opdata) : opdata :=
    fun j => if existsb (Nat.eqb j) (d_ops x) then Some (if keyed then match ops j with Some p => p | None => 0%N end else wep x) else ops j.

  (** Upper bound (rum_ts_utils.c:1501-1544): index of the occurrence at which the query becomes true. *)
  Fixpoint upscan (k : nat) (ops : opdata) (rest : list docr) : option nat :=
    match rest with
    | [] => None
    | x :: r => let ops := markUp x ops in if execute true ops then Some k else upscan (S k) ops r
    end.
  (** Lower bound (rum_ts_utils.c:1551-1589), on the occurrences from the upper bound down. *)
  Fixpoint downscan (k : nat) (ops : opdata) (down : list docr) : option (nat * opdata) :=
    match down with
    | [] => None
    | x :: r => let ops := markDown x ops in if execute false ops then Some (k, ops) else downscan (pred k) ops r
    end.
  (** Extention (rum_ts_utils.c:164-171) after Cover returned true, and operandData then. *)
  Record cover := mkCover { c_begin : nat; c_end : nat; c_p : Z; c_q : Z; c_ops : opdata }.
  (** Cover (rum_ts_utils.c:1485-1603) from ext->pos = [pos]; [rest]: the occurrences from there on.  "goto restart" is the
      recursive call. *)
  Fixpoint Cover (pos : nat) (rest : list docr) : option cover :=
    match rest with
    | [] => None
    | _ :: rest' =>
        match upscan pos no_ops rest with
        | None => None
        | Some last =>
            let top := d_pos (nth (last - pos) rest (mkDocr [] 0 0 0)) in
            if top <=? 0 then None
            else match downscan last no_ops (rev (firstn (S (last - pos)) rest)) with
                 | Some (b, ops) =>
                     let low := d_pos (nth (b - pos) rest (mkDocr [] 0 0 0)) in
                     if low <=? top then Some (mkCover b last low top ops) else Cover (S pos) rest'
                 | None => Cover (S pos) rest'
                 end
        end
    end.
  (** The covers the loop of calc_score_docr visits (rum_ts_utils.c:1868-1951); Cover leaves ext->pos behind the
      beginning of the cover (:1596).  [fuel]: number of iterations; the theorems show that one more than the number of
      occurrences is enough. *)
  Fixpoint coverLoop (fuel pos : nat) (doc : list docr) : list cover :=
    match fuel with
    | O => []
    | S f => match Cover pos (skipn pos doc) with None => [] | Some c => c :: coverLoop f (S (c_begin c)) doc end
    end.
  Definition covers (doc : list docr) : list cover := coverLoop (S (length doc)) 0 doc.
End Cover.

(** weights[] (rum_ts_utils.c:173). *)
Definition weights (c : N) : Q := match c with 0 => 10 # 1 | 1 => 5 # 1 | 2 => 5 # 2 | _ => 1 # 1 end%N.
(** RANK_NORM_* (rum_ts_utils.c:181-188). *)
Definition RANK_NORM_LOGLENGTH : N := 1.
Definition RANK_NORM_LENGTH : N := 2.
Definition RANK_NORM_EXTDIST : N := 4.
Definition RANK_NORM_UNIQ : N := 8.
Definition RANK_NORM_LOGUNIQ : N := 16.
Definition RANK_NORM_RDIVRPLUS1 : N := 32.
Definition DEF_NORM_METHOD : N := 0.
Definition has (method bit : N) : bool := negb (N.land method bit =? 0)%N.

(** The cover's key (rum_ts_utils.c:1880-1893): 32-bit arithmetic. *)
Definition coverKey (l : list docr) : Z := fold_left (fun k x => (2 * k + d_addr x) mod 2 ^ 32) l 0.
(** InvSum (rum_ts_utils.c:1879). *)
Definition invSum (l : list docr) : Q := fold_right (fun x s => weights (d_class x) + s)%Q 0%Q l.
(** What one cover adds before the division by the squared number of covers of its key (rum_ts_utils.c:1917-1935):
    Cpos / (1 + nNoise); [len]: qr->length. *)
Definition coverRank (len : nat) (doc : list docr) (c : cover) : Q :=
  let n := (c_end c - c_begin c)%nat in
  let nitems := length (filter (fun j => match c_ops c j with Some _ => true | None => false end) (seq 0 len)) in
  let Cpos := (inject_Z (Z.of_nat n + 1) / invSum (firstn (S n) (skipn (c_begin c) doc)))%Q in
  let Cpos := if (0 <? nitems)%nat then (Cpos * inject_Z (Z.of_nat nitems))%Q else Cpos in
  let noise := (c_q c - c_p c) - Z.of_nat n in
  let noise := if noise <? 0 then Z.of_nat n / 2 else noise in
  (Cpos / inject_Z (1 + noise))%Q.
(** cover_keys, cover_lengths, cover_ranks after one more cover (rum_ts_utils.c:1895-1938). *)
Fixpoint addCover (key : Z) (r : Q) (l : list (Z * Z * Q)) : list (Z * Z * Q) :=
  let add n w := (w + r / inject_Z n / inject_Z n / (164493406685 # 100000000000))%Q in
  match l with
  | [] => [(key, 1, add 1 0%Q)]
  | (k, n, w) :: l' => if k =? key then (k, n + 1, add (n + 1) w) :: l' else (k, n, w) :: addCover key r l'
  end.
(** CurExtPos and SumDist (rum_ts_utils.c:1940-1948). *)
Definition middle (c : cover) : Q := (inject_Z (c_q c + c_p c) / 2)%Q.
Fixpoint sumDist (prev : option Q) (l : list cover) : Q :=
  match l with
  | [] => 0
  | c :: l' =>
      let cur := middle c in
      let rest := sumDist (Some cur) l' in
      match prev with
      | Some p => if Qle_bool cur p then rest else (1 / (cur - p) + rest)
      | None => rest
      end
  end%Q.

(** calc_score_docr (rum_ts_utils.c:1848-1967). *)
Definition calc_score_docr (keyed : bool) (slot : nat -> nat) (q : tsq) (len : nat) (doc : list docr) (method : N) : Q :=
  let cs := covers keyed slot q doc in
  let acc := fold_left (fun l c => addCover (coverKey (firstn (S (c_end c - c_begin c)) (skipn (c_begin c) doc))) (coverRank len doc c) l) cs [] in
  let W := fold_right (fun e s => (snd e + s)%Q) 0%Q acc in
  let S' := sumDist None cs in
  let W := if has method RANK_NORM_EXTDIST && negb (Nat.eqb (length cs) 0) && negb (Qle_bool S' 0) then (W / (inject_Z (Z.of_nat (length cs)) / S'))%Q else W in
  if has method RANK_NORM_RDIVRPLUS1 then (W / (W + 1))%Q else W.

(** get_docrep_addinfo (rum_ts_utils.c:1606-1674) before the sort: the occurrences of the words found, from the attached
    positions.  [itemAddr]: address of a query item. *)
Fixpoint docrepAddinfo (itemAddr : nat -> Z) (map : list nat) (add : list (option (list byte))) (check : nat -> bool) (i : nat) (its : list (option operand)) : list docr :=
  match its with
  | [] => []
  | None :: its' => docrepAddinfo itemAddr map add check (S i) its'
  | Some _ :: its' =>
      let keyN := nth i map O in
      if negb (check keyN) then docrepAddinfo itemAddr map add check (S i) its'
      else
        let check' := fun j => if Nat.eqb j keyN then false else check j in
        match nth keyN add None with
        | None => docrepAddinfo itemAddr map add check' (S i) its'
        | Some bs => List.map (fun p => mkDocr [keyN] (itemAddr i) (WEP_GETWEIGHT p) (Z.of_N (WEP_GETPOS p))) (decoded bs) ++ docrepAddinfo itemAddr map add check' (S i) its'
        end
  end.

(** find_wordentry (rum_ts_utils.c:1686-1729): binary search, then, for a prefix operand, the run of words with the
    prefix; the index of the first word and the number of words, [None] if there is none. *)
Definition wordAt (txt : list (list N * option (list N))) (n : nat) : list N := fst (nth n txt ([], None)).
Fixpoint searchWord (fuel : nat) (txt : list (list N * option (list N))) (w : list N) (lo hi : nat) : nat * bool :=
  match fuel with
  | O => (hi, false)
  | S f =>
      if (lo <? hi)%nat then
        let mid := (lo + (hi - lo) / 2)%nat in
        let difference := word_compare w (wordAt txt mid) in
        if difference =? 0 then (mid, true)
        else if 0 <? difference then searchWord f txt w (S mid) hi
        else searchWord f txt w lo mid
      else (hi, false)
  end.
Fixpoint prefixRun (w : list N) (l : list (list N * option (list N))) : nat :=
  match l with
  | [] => O
  | e :: l' => if is_prefix w (fst e) then S (prefixRun w l') else O
  end.
Definition find_wordentry (txt : list (list N * option (list N))) (o : operand) : option (nat * nat) :=
  let '(first, hit) := searchWord (S (length txt)) txt (o_word o) 0 (length txt) in
  let n := if o_prefix o then prefixRun (o_word o) (skipn first txt) else if hit then 1%nat else 0%nat in
  if (0 <? n)%nat then Some (first, n) else None.

(** get_docrep (rum_ts_utils.c:1731-1846) before the sort: the occurrences of the words of the query in the document; a
    word without positions counts as one occurrence at position 0 (POSNULL, :176-179).  [exist]: operandexist;
    [alloc cur]: address of the array allocated for the occurrence number [cur].  compareQueryOperand compares the
    words only (:1067-1077). *)
Definition sameWord (o : operand) (x : option operand) : bool := match x with Some o' => word_compare (o_word o') (o_word o) =? 0 | None => false end.
Definition sameItems (its : list (option operand)) (o : operand) : list nat := filter (fun k => sameWord o (nth k its None)) (seq 0 (length its)).
Fixpoint entryOccs (alloc : nat -> Z) (ops : list nat) (cur : nat) (l : list (list N * option (list N))) : list docr :=
  match l with
  | [] => []
  | (_, ps) :: l' =>
      let post := match ps with Some (p :: r) => p :: r | _ => [0%N] end in
      map (fun p => mkDocr ops (alloc cur) (WEP_GETWEIGHT p) (Z.of_N (WEP_GETPOS p))) post ++ entryOccs alloc ops (cur + length post) l'
  end.
Fixpoint docrep (alloc : nat -> Z) (its : list (option operand)) (txt : list (list N * option (list N))) (exist : nat -> bool) (cur i : nat) (l : list (option operand)) : list docr :=
  match l with
  | [] => []
  | None :: l' => docrep alloc its txt exist cur (S i) l'
  | Some o :: l' =>
      if exist i then docrep alloc its txt exist cur (S i) l'
      else match find_wordentry txt o with
           | None => docrep alloc its txt exist cur (S i) l'
           | Some (first, n) =>
               let ops := sameItems its o in
               let occs := entryOccs alloc ops cur (firstn n (skipn first txt)) in
               occs ++ docrep alloc its txt (fun j => existsb (Nat.eqb j) ops || exist j) (cur + length occs) (S i) l'
           end
  end.

Section Score.
  (** The C library's qsort with compareDocR (rum_ts_utils.c:1436-1446). *)
  Variable qsortD : list docr -> list docr.
  Variables (cast ln : Q -> Q).

  (** calc_score_addinfo (rum_ts_utils.c:1969-1997); [nkeys]: number of query keys. *)
  Definition calc_score_addinfo (itemAddr : nat -> Z) (map : list nat) (check : list bool) (add : list (option (list byte))) (nkeys : nat) (q : tsq) : Q :=
    match docrepAddinfo itemAddr map add (fun j => nth j check false) 0 (items q) with
    | [] => 0
    | doc => cast (cast (calc_score_docr true (fun i => nth i map O) q nkeys (qsortD doc) DEF_NORM_METHOD))
    end.
  (** count_length (rum_ts_utils.c:1042-1062). *)
  Definition count_length (txt : list (list N * option (list N))) : Z :=
    fold_right (fun e s => (match snd e with Some (p :: r) => Z.of_nat (length (p :: r)) | _ => 1 end) + s) 0 txt.
  (** calc_score (rum_ts_utils.c:2000-2042). *)
  Definition calc_score (alloc : nat -> Z) (txt : list (list N * option (list N))) (q : tsq) (method : N) : Q :=
    match docrep alloc (items q) txt (fun _ => false) 0 0 (items q) with
    | [] => 0
    | doc =>
        let W := cast (calc_score_docr false (fun i => i) q (qsize q) (qsortD doc) method) in
        let size := Z.of_nat (length txt) in
        let W := if has method RANK_NORM_LOGLENGTH && (0 <? size) then (W / ln (inject_Z (count_length txt + 1)))%Q else W in
        let W := if has method RANK_NORM_LENGTH && (0 <? count_length txt) then (W / inject_Z (count_length txt))%Q else W in
        let W := if has method RANK_NORM_UNIQ && (0 <? size) then (W / inject_Z size)%Q else W in
        let W := if has method RANK_NORM_LOGUNIQ && (0 <? size) then (W / (ln (inject_Z (size + 1)) / ln 2))%Q else W in
        cast W
    end.
  (** 1.0 / res, infinity ([None]) if res == 0 (rum_ts_utils.c:2065-2068, 2085-2088, 2106-2109, 2163-2166). *)
  Definition distanceOf (res : Q) : option Q := if Qeq_bool res 0 then None else Some (1 / res)%Q.
  (** rum_tsquery_distance (rum_ts_utils.c:2048-2069): distance inside the index. *)
  Definition rum_tsquery_distance (itemAddr : nat -> Z) (map : list nat) (check : list bool) (add : list (option (list byte))) (nkeys : nat) (q : option tsq) : option Q :=
    match q with
    | Some q => distanceOf (calc_score_addinfo itemAddr map check add nkeys q)
    | None => distanceOf 0
    end.
  (** rum_ts_distance_tt, rum_ts_distance_ttf, rum_ts_distance_td, rum_ts_score_* (rum_ts_utils.c:2074-2221). *)
  Definition rum_ts_score (alloc : nat -> Z) (txt : list (list N * option (list N))) (q : option tsq) (method : N) : Q :=
    match q with Some q => calc_score alloc txt q method | None => 0 end.
  Definition rum_ts_distance (alloc : nat -> Z) (txt : list (list N * option (list N))) (q : option tsq) (method : N) : option Q :=
    distanceOf (rum_ts_score alloc txt q method).
End Score.
