(** Index scans: combining the query keys of the search conditions (RumScanKey) into matching rows -
    the regular scan and the fast scan of rumget.c.  Model file: no proofs.

    Simplifications: forward direction; operator-class functions are parameters; the full-index
    scan (scanGetItemFull) is not modelled here; freeing of memory and interrupts are left out. *)
From Verif Require Import Base LeafPage ScanEntry TidBitmap.
From Coq Require Import NArith ZArith Bool Arith List.
Import ListNotations.
Local Open Scope Z_scope.

(** A search condition or ordering key: RumScanKeyData (rum.h:609-663).  [sk_ents]: numbers of its
    entries in so->entries.  [sk_cons]: consistentFn on entryRes/addInfo/addInfoIsNull ([None]:
    entryRes false) giving the answer and the recheck flag.  [sk_pre]: preConsistentFn.  [sk_every]:
    searchMode is GIN_SEARCH_MODE_EVERYTHING.  [sk_subs]: addInfoKeys, as comparePartialFn on their
    query keys.  Search conditions have attnum = attnumOrig = [sk_att]. *)
Record skey (A : Type) := mkSKey {
  sk_att : N; sk_order : bool; sk_ents : list nat;
  sk_cons : list (option (option A)) -> bool * bool; sk_pre : option (list bool -> bool);
  sk_every : bool; sk_subs : option (list (A -> Z)); sk_willSort : bool }.
Arguments mkSKey {A}. Arguments sk_att {A}. Arguments sk_order {A}. Arguments sk_ents {A}. Arguments sk_cons {A}.
Arguments sk_pre {A}. Arguments sk_every {A}. Arguments sk_subs {A}. Arguments sk_willSort {A}.
(** The changing part of a RumScanKeyData: curItem, curItemMatches, recheckCurItem, isFinished,
    outerAddInfo ([None]: outerAddInfoIsNull). *)
Record kst (A : Type) := mkKst { ks_cur : item A; ks_match : bool; ks_re : bool; ks_fin : bool; ks_outer : option A }.
Arguments mkKst {A}. Arguments ks_cur {A}. Arguments ks_match {A}. Arguments ks_re {A}. Arguments ks_fin {A}. Arguments ks_outer {A}.
(** What startScanEntry finds in the index for a query key: nothing, a posting list, the leaf level
    of a posting tree, or - partial match and whole-column search - the sorted rows of many index keys.
    [junk]: what the memory of entry->list[0], taken by palloc (rumget.c:673), holds before it is written. *)
Inductive found (A : Type) := FNone | FList (l : list (item A)) | FTree (chain : list (leaf A)) (junk : item A) | FMany (rows : list (item A)).
Arguments FNone {A}. Arguments FList {A}. Arguments FTree {A}. Arguments FMany {A}.
(** startScanEntry (rumget.c:544-715) and setListPositionScanEntry (rumget.c:490-532) without
    useMarkAddInfo, forward: the entry's state after it.  Locking and unlocking is left out. *)
Definition startScanEntry {A} (att : N) (f : found A) (predict : N) (refind : item A -> nat) : entry A :=
  match f with
  | FNone => mkEntry att Mem [] 0 item_min true 0 refind
  | FList [] => mkEntry att Mem [] 0 item_min true 0 refind
  | FList l => mkEntry att Mem l 0 (nth 0 l item_min) false predict refind
  | FTree chain junk =>
      let l := match chain with [] => [] | pg :: _ => lf_items pg end in
      mkEntry att (Tree chain 0) l 0 (nth 0 l junk) false predict refind
  | FMany rows => mkEntry att (Coll rows CMin) [] 0 item_min false predict refind
  end.
(** startScanKey (rumget.c:717-724). *)
Definition startScanKey {A} : kst A := mkKst item_min false false false None.

Section Scan.
  Context {A : Type}.
  Variables (useAlt : bool) (addTo : N) (cmpA : A -> A -> Z).
  Variable joinFn : joins A.
  (** Order in which the bitmap's hash table is walked (see TidBitmap.v). *)
  Variables (visit : tbm -> list N) (iterate : list (N * pentry) -> list (N * pentry)).
  (** Size limit of a bitmap: work_mem. *)
  Variable tbmMax : N.
  Notation item := (item A).
  Notation entry := (entry A).
  Notation skey := (skey A).
  Notation kst := (kst A).
  Notation cmpAt := (cmpAt useAlt addTo cmpA).
  Notation getItem := (entryGetItem useAlt addTo cmpA joinFn).
  Notation findItem := (entryFindItem useAlt addTo cmpA).

  (** An entry that is never used: what a number out of range would give. *)
  Definition noEntry : entry := mkEntry 0 Mem [] 0 item_min true 0 (fun _ => O).
  Definition ent (ents : list entry) (n : nat) : entry := nth n ents noEntry.

  (** The remembered value and the answer of callAddInfoConsistentFn (rumget.c:67-133). *)
  Fixpoint outerOf (chk : list (option (option A))) : option A :=
    match chk with
    | [] => None
    | Some (Some a) :: _ => Some a
    | _ :: r => outerOf r
    end.
  Definition callAddInfoConsistentFn (k : skey) (chk : list (option (option A))) : bool :=
    if negb (sk_att k =? addTo)%N then true
    else match sk_subs k with
         | None => true
         | Some subs => match outerOf chk with None => false | Some a => forallb (fun f => f a =? 0) subs end
         end.
  Definition newOuter (k : skey) (chk : list (option (option A))) (old : option A) : option A :=
    if negb (sk_att k =? addTo)%N then old
    else match sk_subs k with
         | None => if sk_willSort k then outerOf chk else None
         | Some _ => outerOf chk
         end.
  (** callConsistentFn (rumget.c:144-186): answer and recheck flag. *)
  Definition callConsistentFn (k : skey) (chk : list (option (option A))) : bool * bool :=
    let '(res, re) := if sk_every k then (true, false) else sk_cons k chk in
    (res && callAddInfoConsistentFn k chk, re).

  (** entryRes, addInfo, addInfoIsNull of a key for the row [p] (rumget.c:1461-1478). *)
  Definition checkAt (ents : list entry) (k : skey) (p : iptr) : list (option (option A)) :=
    map (fun n => let e := ent ents n in
                  if negb (e_fin e) && (rumCompareItemPointers (ip (e_cur e)) p =? 0) then Some (add (e_cur e)) else None)
        (sk_ents k).
  (** The smallest curItem of the entries that are not finished (rumget.c:1427-1441). *)
  Fixpoint minItem (es : list entry) (m : option item) : option item :=
    match es with
    | [] => m
    | e :: r =>
        if e_fin e then minItem r m
        else match m with
             | None => minItem r (Some (e_cur e))
             | Some x => if cmpAt (e_att e) (e_cur e) x <? 0 then minItem r (Some (e_cur e)) else minItem r m
             end
    end.
  Definition testKey (ents : list entry) (k : skey) (ks : kst) (x : item) : kst :=
    let chk := checkAt ents k (ip x) in
    let '(res, re) := callConsistentFn k chk in
    mkKst x res re false (newOuter k chk (ks_outer ks)).
  (** keyGetItem (rumget.c:1416-1498). *)
  Definition keyGetItem (ents : list entry) (k : skey) (ks : kst) : kst :=
    match minItem (map (ent ents) (sk_ents k)) None with
    | None => mkKst (ks_cur ks) (ks_match ks) (ks_re ks) true (ks_outer ks)
    | Some x => if rumCompareItemPointers (ip (ks_cur ks)) (ip x) =? 0 then ks else testKey ents k ks x
    end.

  (** A bound on the number of rows an entry can still give. *)
  Definition e_bound (e : entry) : nat :=
    (length (e_list e) +
     match e_src e with
     | Mem => 0
     | Tree chain _ => length (flat_map (@lf_items A) chain)
     | Coll rest _ => S (length rest)
     end + 2)%nat.
  Definition total_bound (ents : list entry) : nat := fold_right (fun e n => (e_bound e + n)%nat) 0%nat ents.

  (** while (!isFinished && cmp(curItem, past) <= 0) entryGetItem (rumget.c:1197-1369, past valid). *)
  Fixpoint advance_loop (cmp : item -> item -> Z) (fuel : nat) (past : item) (e : entry) : entry :=
    match fuel with
    | O => e
    | S f => if negb (e_fin e) && (cmp (e_cur e) past <=? 0) then advance_loop cmp f past (getItem e) else e
    end.
  (** One entry's turn in the advance loop (rumget.c:1642-1670). *)
  Definition advance (past : item) (e : entry) : entry :=
    if ip_valid (ip past) then advance_loop (cmpAt (e_att e)) (e_bound e) past e
    else if e_fin e then e else getItem e.
  (** Catching up an ordering key's entry (rumget.c:1768-1774). *)
  Fixpoint catchup_loop (cmp : item -> item -> Z) (fuel : nat) (x : item) (e : entry) : entry :=
    match fuel with
    | O => e
    | S f => if negb (e_fin e) && (cmp (e_cur e) x <? 0) then catchup_loop cmp f x (getItem e) else e
    end.
  Definition catchup (att : N) (x : item) (e : entry) : entry := catchup_loop (cmpAt att) (e_bound e) x e.
  Definition update (ents : list entry) (n : nat) (f : entry -> entry) : list entry :=
    map (fun ie => if (fst ie =? n)%nat then f (snd ie) else snd ie) (combine (seq 0 (length ents)) ents).

  (** ** Bitmap of the conditions that are in row order *)
  (** isScanWithAltOrderKeys (rumget.c:770-791). *)
  Definition isScanWithAltOrderKeys (keys : list skey) : bool :=
    negb (length keys =? 1)%nat &&
    existsb (fun k => negb (useAlt && (addTo =? sk_att k)%N)) keys && existsb (fun k => useAlt && (addTo =? sk_att k)%N) keys.
  (** The for(;;) of collectAllCurItemsToBitmap (rumget.c:1510-1550). *)
  Fixpoint collect_bitmap (fuel : nat) (ents : list entry) (k : skey) (ks : kst) (past : option iptr) (t : tbm)
    : list entry * kst * tbm :=
    match fuel with
    | O => (ents, ks, t)
    | S f =>
        let adv e := match past with
                     | None => if e_fin e then e else getItem e
                     | Some p => advance_loop (fun a b => rumCompareItemPointers (ip a) (ip b)) (e_bound e) (mkItem p None) e
                     end in
        let ents1 := fold_left (fun es n => update es n adv) (sk_ents k) ents in
        let ks1 := keyGetItem ents1 k ks in
        if ks_fin ks1 then (ents1, ks1, t)
        else
          let t1 := if ks_match ks1
                    then match tbm_add_tuple visit t (ip (ks_cur ks1)) false with Some t' => t' | None => t end
                    else t in
          collect_bitmap f ents1 k ks1 (Some (ip (ks_cur ks1))) t1
    end.
  (** The preparation of scanGetItemRegular (rumget.c:1593-1624). *)
  Fixpoint prepare_bitmap (ents : list entry) (keys : list (skey * kst)) (t : tbm) (isset : bool)
    : list entry * list (skey * kst) * tbm :=
    match keys with
    | [] => (ents, [], t)
    | (k, ks) :: r =>
        if sk_order k || (addTo =? sk_att k)%N then
          let '(ents', r', t') := prepare_bitmap ents r t isset in (ents', (k, ks) :: r', t')
        else
          let '(ents1, ks1, cur) := collect_bitmap (S (total_bound ents)) ents k ks None (tbm_create tbmMax) in
          let t1 := if isset then tbm_intersect t cur else tbm_union visit iterate t cur in
          let '(ents', r', t') := prepare_bitmap ents1 r t1 true in (ents', (k, ks1) :: r', t')
    end.

  (** ** The regular scan *)
  Record sst := mkSst { s_ents : list entry; s_keys : list (skey * kst); s_alt : bool; s_tbm : tbm }.
  (** Keys and entries the main loop looks at. *)
  Definition useKey (alt : bool) (k : skey) : bool := negb (sk_order k || (alt && negb (addTo =? sk_att k)%N)).
  Definition useEnt (alt : bool) (e : entry) : bool := negb (alt && negb (addTo =? e_att e)%N).

  (** The keyGetItem loop with the choice of the smallest item (rumget.c:1685-1717).  [None]: a key
      is finished. *)
  Fixpoint keysGet (alt : bool) (ents : list entry) (keys : list (skey * kst)) (it : option item)
    : option (list (skey * kst) * option item) :=
    match keys with
    | [] => Some ([], it)
    | (k, ks) :: r =>
        if useKey alt k then
          let ks1 := keyGetItem ents k ks in
          if ks_fin ks1 then None
          else
            let it1 := match it with
                       | None => ks_cur ks1
                       | Some x => if cmpAt (sk_att k) (ks_cur ks1) x <? 0 then ks_cur ks1 else x
                       end in
            match keysGet alt ents r (Some it1) with
            | None => None
            | Some (r', it') => Some ((k, ks1) :: r', it')
            end
        else match keysGet alt ents r it with
             | None => None
             | Some (r', it') => Some ((k, ks) :: r', it')
             end
    end.
  (** rumget.c:1719-1743 *)
  Definition allMatch (alt : bool) (keys : list (skey * kst)) (x : item) : bool :=
    forallb (fun kk => negb (useKey alt (fst kk)) ||
                       (ks_match (snd kk) && (rumCompareItemPointers (ip x) (ip (ks_cur (snd kk))) =? 0))) keys.
  (** The closing loop (rumget.c:1758-1783): ordering keys are caught up until the first key that
      asks for recheck. *)
  Fixpoint finishKeys (ents : list entry) (keys : list (skey * kst)) (x : item) : list entry * bool :=
    match keys with
    | [] => (ents, false)
    | (k, ks) :: r =>
        if sk_order k then finishKeys (fold_left (fun es n => update es n (catchup (sk_att k) x)) (sk_ents k) ents) r x
        else if ks_re ks then (ents, true) else finishKeys ents r x
    end.
  (** The for(;;) of scanGetItemRegular (rumget.c:1626-1756).  [None]: no more rows (or out of
      fuel, or no key to look at). *)
  Fixpoint regular_loop (fuel : nat) (st : sst) (past : item) : option (sst * item * bool) :=
    match fuel with
    | O => None
    | S f =>
        let alt := s_alt st in
        let ents := map (fun e => if useEnt alt e then advance past e else e) (s_ents st) in
        if forallb (fun e => e_fin e) (filter (useEnt alt) ents) then None
        else
          match keysGet alt ents (s_keys st) None with
          | Some (keys, Some x) =>
              let m := allMatch alt keys x in
              let '(inb, brecheck) := if alt then rum_tbm_contains_tid (s_tbm st) (ip x) else (true, false) in
              if m && inb then
                let '(ents', re) := finishKeys ents keys x in
                Some (mkSst ents' keys alt (s_tbm st), x, re || (alt && brecheck))
              else regular_loop f (mkSst ents keys alt (s_tbm st)) x
          | _ => None
          end
    end.
  (** scanGetItemRegular (rumget.c:1571-1791). *)
  Definition scanGetItemRegular (st : sst) (past : item) : option (sst * item * bool) :=
    let st1 :=
      if s_alt st && negb (ip_valid (ip past)) then
        let '(ents, keys, t) := prepare_bitmap (s_ents st) (s_keys st) (s_tbm st) false in mkSst ents keys (s_alt st) t
      else st in
    regular_loop (S (total_bound (s_ents st1))) st1 past.
  (** startScan (rumget.c:793-911) for the regular scan, entries already started. *)
  Definition startRegular (ents : list entry) (keys : list skey) : sst :=
    mkSst ents (map (fun k => (k, startScanKey)) keys) (isScanWithAltOrderKeys keys) (tbm_create tbmMax).
  (** rumgetbitmap (rumget.c:2337-2377) and the fill loop of rumgettuple (rumget.c:2600-2604): all
      rows with their recheck flags; with each row the entries at that moment (keyGetOrdering reads them). *)
  Fixpoint runRegular (fuel : nat) (st : sst) (past : item) : list (item * bool * sst) :=
    match fuel with
    | O => []
    | S f => match scanGetItemRegular st past with
             | None => []
             | Some (st', x, re) => (x, re, st') :: runRegular f st' x
             end
    end.
  Definition scanRegular (ents : list entry) (keys : list skey) : list (item * bool * sst) :=
    runRegular (S (total_bound ents)) (startRegular ents keys) (mkItem ip_invalid None).

  (** ** The fast scan *)
  (** so->entries, so->sortedEntries (numbers into it), keys. *)
  Record fst_ := mkFst { f_ents : list entry; f_sorted : list nat; f_keys : list (skey * kst); f_incr : option nat }.

  (** cmpEntries (rumget.c:730-752). *)
  Definition cmpEntries (e1 e2 : entry) : Z :=
    if e_fin e1 then (if e_fin e2 then 0 else 1)
    else if e_fin e2 then -1
    else if negb (e_att e1 =? e_att e2)%N then (if (e_att e1 <? e_att e2)%N then 1 else -1)
    else cmpAt (e_att e1) (e_cur e1) (e_cur e2).

  (** Position, counted from [j], of the entry with the smallest predictNumberResult (rumget.c:2095-2103). *)
  Fixpoint minPredict (ents : list entry) (l : list nat) (j : nat) (best : option (nat * N)) : option (nat * N) :=
    match l with
    | [] => best
    | n :: r =>
        let p := e_predict (ent ents n) in
        minPredict ents r (S j)
          (match best with None => Some (j, p) | Some (b, q) => if (p <? q)%N then Some (j, p) else Some (b, q) end)
    end.
  (** "Restore order" (rumget.c:2113-2125): the entry moves towards the front past smaller ones;
      [rpre]: the entries before it, nearest first. *)
  Fixpoint bubble (ents : list entry) (n : nat) (rpre post : list nat) : list nat :=
    match rpre with
    | [] => n :: post
    | p :: r => if 0 <? cmpEntries (ent ents n) (ent ents p) then bubble ents n r (p :: post) else rev rpre ++ n :: post
    end.
  (** entryShift (rumget.c:2082-2123). *)
  Definition entryShift (i : nat) (find : bool) (es : list entry * list nat) : list entry * list nat :=
    let '(ents, sorted) := es in
    match minPredict ents (skipn i sorted) i None with
    | None => es
    | Some (m, _) =>
        let n := nth m sorted O in
        let e := ent ents n in
        let e' := if find then findItem e (e_cur (ent ents (nth (i - 1) sorted O)))
                  else if e_fin e then e else getItem e in
        let ents' := update ents n (fun _ => e') in
        (ents', bubble ents' n (rev (firstn m sorted)) (skipn (S m) sorted))
    end.
  Definition shiftAll (k : nat) (es : list entry * list nat) : list entry * list nat :=
    fold_left (fun s j => entryShift j false s) (seq k (length (snd es) - k)) es.

  (** preConsistentCheck (rumget.c:2027-2076); [no]: the entries with preValue = false. *)
  Definition preConsistentCheck (keys : list (skey * kst)) (no : list nat) : bool :=
    forallb (fun kk =>
      let k := fst kk in
      let res := map (fun n => negb (existsb (Nat.eqb n) no)) (sk_ents k) in
      sk_order k || sk_every k ||
      match sk_pre k with None => true | Some f => forallb (fun b => b) res || f res end) keys.
  (** The border loop (rumget.c:2158-2171): [prev] is sortedEntries[i-1], [no] the entries before it
      (and it).  Result: i, k, preConsistentResult. *)
  Fixpoint borderLoop (ents : list entry) (keys : list (skey * kst)) (no : list nat) (prev : nat) (l : list nat) (i k : nat) : nat * nat * bool :=
    match l with
    | [] => (i, k, true)
    | n :: r =>
        if cmpEntries (ent ents n) (ent ents prev) <? 0 then
          if preConsistentCheck keys (no ++ [prev]) then borderLoop ents keys (no ++ [prev]) n r (S i) i
          else (i, i, false)
        else borderLoop ents keys (no ++ [prev]) n r (S i) k
    end.

  (** The consistent calls (rumget.c:2189-2226).  A failed key shifts the entries from [kpos] on at
      once and the loop goes on with the next key. *)
  Fixpoint consistentLoop (kpos : nat) (keys : list (skey * kst)) (es : list entry * list nat) (ok : bool)
    : list (skey * kst) * (list entry * list nat) * bool :=
    match keys with
    | [] => ([], es, ok)
    | (k, ks) :: r =>
        if sk_order k then
          let '(r', es', ok') := consistentLoop kpos r es ok in ((k, ks) :: r', es', ok')
        else
          let p := ip (e_cur (ent (fst es) (last (snd es) O))) in
          let chk := checkAt (fst es) k p in
          let '(res, re) := callConsistentFn k chk in
          let ks' := mkKst (ks_cur ks) (ks_match ks) re (ks_fin ks) (newOuter k chk (ks_outer ks)) in
          let es1 := if res then es else shiftAll kpos es in
          let '(r', es', ok') := consistentLoop kpos r es1 (ok && res) in ((k, ks') :: r', es', ok')
    end.
  (** The for(;;) of scanGetItemFast (rumget.c:2148-2250). *)
  Fixpoint fast_loop (fuel : nat) (st : fst_) : option (fst_ * item * bool) :=
    match fuel with
    | O => None
    | S f =>
        match f_sorted st with
        | [] => None
        | n0 :: r =>
            let '(i, k, pre) := borderLoop (f_ents st) (f_keys st) [] n0 r 1 0 in
            if e_fin (ent (f_ents st) (nth (i - 1) (f_sorted st) O)) then None
            else if pre then
              let '(keys, es, ok) := consistentLoop k (f_keys st) (f_ents st, f_sorted st) true in
              if ok then
                let re := existsb (fun kk => negb (sk_order (fst kk)) && ks_re (snd kk)) keys in
                Some (mkFst (fst es) (snd es) keys (Some k), e_cur (ent (fst es) (last (snd es) O)), re)
              else fast_loop f (mkFst (fst es) (snd es) keys (f_incr st))
            else
              let '(ents, sorted) := entryShift i true (f_ents st, f_sorted st) in
              fast_loop f (mkFst ents sorted (f_keys st) (f_incr st))
        end
    end.
  (** scanGetItemFast (rumget.c:2128-2245). *)
  Definition scanGetItemFast (st : fst_) : option (fst_ * item * bool) :=
    let '(ents, sorted) := match f_incr st with
                           | None => (f_ents st, f_sorted st)
                           | Some k => shiftAll k (f_ents st, f_sorted st)
                           end in
    fast_loop (S (total_bound ents)) (mkFst ents sorted (f_keys st) (f_incr st)).
  (** startScan for the fast scan (rumget.c:906-923): one entryGetItem each; the order left by
      qsort_arg is a parameter. *)
  Definition startEntries (ents : list entry) : list entry := map (fun e => if e_fin e then e else getItem e) ents.
  Definition startFast (ents : list entry) (keys : list skey) (sorted : list nat) : fst_ :=
    mkFst (startEntries ents) sorted (map (fun k => (k, startScanKey)) keys) None.
  Fixpoint runFast (fuel : nat) (st : fst_) : list (item * bool * fst_) :=
    match fuel with
    | O => []
    | S f => match scanGetItemFast st with
             | None => []
             | Some (st', x, re) => (x, re, st') :: runFast f st'
             end
    end.
  Definition scanFast (ents : list entry) (keys : list skey) (sorted : list nat) : list (item * bool * fst_) :=
    runFast (S (total_bound ents)) (startFast ents keys sorted).
End Scan.
