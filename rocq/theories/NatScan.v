(** Scans in the order of the attached column without a sort (so->naturalOrder): ORDER BY the attached column by a
    one-sided distance in an index ordered by it.  Two passes of the fast scan, the second in the other direction.
    Model file: no proofs.

    Simplifications: all query keys belong to the column the values are attached to (its entries all get
    useMarkAddInfo and the scan direction, rumscan.c:484-562) and none is a partial match or a whole-column search
    (fast scan); the index does not change while the scan runs; RumFuzzySearchLimit is 0. *)
From Verif Require Import Base LeafPage ScanEntry Scan ScanSpec.
From Coq Require Import NArith ZArith Bool Arith List.
Import ListNotations.
Local Open Scope Z_scope.

Section Nat.
  Context {A : Type}.
  Variables (addTo : N) (cmpA : A -> A -> Z).
  Variable joinFn : joins A.
  (** What the memory just before entry->list holds: list[-1]. *)
  Variable below : item A.
  Notation item := (item A).
  Notation entry := (entry A).
  Notation skey := (skey A).
  Notation kst := (kst A).
  (** compareRumItem(rumstate, addTo, ...), useAlternativeOrder. *)
  Notation cmp := (compareRumItem true cmpA).

  (** entry->markAddInfo: RumItemPointerSetMin (rumscan.c:129) and the ordering's argument (rumscan.c:517-518). *)
  Definition markItem (v : A) : item := mkItem ip_min (Some v).

  (** compareRumItemScanDirection (rumget.c:1385-1394). *)
  Definition cmpDir (fwd : bool) (a b : item) : Z := if fwd then cmp a b else - cmp a b.

  (** The binary search of setListPositionScanEntry (rumget.c:508-522): [inl o] - an equal item at o; [inr h] -
      StopHigh at the end. *)
  Fixpoint markSearch (fuel : nat) (l : list item) (m : item) (lo hi : nat) : nat + nat :=
    match fuel with
    | O => inr hi
    | S f =>
        if (lo <? hi)%nat then
          let o := (lo + (hi - lo) / 2)%nat in
          let r := cmp m (nth o l item_min) in
          if r <? 0 then markSearch f l m lo o else if 0 <? r then markSearch f l m (S o) hi else inl o
        else inr hi
    end.
  (** setListPositionScanEntry (rumget.c:496-539) with useMarkAddInfo, from offset 0: the new offset, [None] when
      there is no such position. *)
  Definition setListPosition (fwd : bool) (l : list item) (m : item) : option nat :=
    match markSearch (S (length l)) l m 0 (length l) with
    | inl o => Some o
    | inr h => if fwd then (if (length l <=? h)%nat then None else Some h)
               else match h with O => None | S o => Some o end
    end.
  Definition startAt (fwd : bool) (att : N) (src : esrc A) (l : list item) (m : item) (predict : N) (refind : item -> nat) : entry :=
    match setListPosition fwd l m with
    | Some o => mkEntry att src l (Z.of_nat o) (nth o l item_min) false predict refind
    | None => mkEntry att src l 0 item_min true predict refind
    end.
  (** startScanEntry (rumget.c:544-715) with useMarkAddInfo: the leaf is the one a search for the mark arrives at
      (rumScanBeginPostingTree, rumdatapage.c:1549-1562). *)
  Definition startMark (fwd : bool) (m : item) (q : qentry (A := A)) : entry :=
    match q_found q with
    | FList (x :: l) => startAt fwd (q_att q) Mem (x :: l) m (q_predict q) (q_refind q)
    | FTree chain _ =>
        let p := q_refind q m in
        match nth_error chain p with
        | Some pg => startAt fwd (q_att q) (Tree chain p) (lf_items pg) m (q_predict q) (q_refind q)
        | None => mkEntry (q_att q) Mem [] 0 item_min true 0 (q_refind q)
        end
    | _ => mkEntry (q_att q) Mem [] 0 item_min true 0 (q_refind q)
    end.

  (** ** Backward *)
  (** The in-page index loop of scanPage (rumget.c:1826-1858), backward; [j] numbers the index entry.  An unused
      entry has offset 0 (InvalidOffsetNumber). *)
  Fixpoint narrowB (ix : list (idx (T:=item))) (x : item) (equalOk : bool) (j first maxoff : nat) : nat * nat :=
    match ix with
    | [] => (first, maxoff)
    | e :: r =>
        let c := cmp (i_key e) x in
        if (c <? 0) || ((c <=? 0) && negb equalOk) then narrowB r x equalOk (S j) (i_off e) maxoff
        else (first, if (j + 1 <? RumDataLeafIndexCount)%nat then match r with [] => O | e' :: _ => i_off e' end else maxoff)
    end.
  (** list[o], o >= -1. *)
  Definition listAt (l : list item) (o : Z) : item := if o <? 0 then below else nth (Z.to_nat o) l item_min.
  (** scanPage (rumget.c:1797-1915), backward. *)
  Definition scanPageB (pg : leaf A) (e : entry) (x : item) (equalOk : bool) : entry * bool :=
    let '(first0, maxoff) := narrowB (updateItemIndexes item_min (lf_items pg)) x equalOk 0 1 (length (lf_items pg)) in
    let first := if (maxoff <=? first0)%nat then 1%nat else first0 in
    let l := firstn (maxoff + 1 - first) (skipn (first - 1) (lf_items pg)) in
    match scan_bound cmp l x 0 with
    | None => let o := Z.of_nat maxoff - Z.of_nat first in (set_cur (set_list e l o) (listAt l o) (o - 1), true)
    | Some (b, eq) =>
        let o := if eq && equalOk then Z.of_nat b else Z.of_nat b - 1 in
        match at_off l o with
        | None => (set_list e l o, false)
        | Some y => (set_cur (set_list e l o) y (o - 1), true)
        end
    end.
  (** entryGetNextItem (rumget.c:918-1029), backward. *)
  Definition getNextB (chain : list (leaf A)) (pos : nat) (e : entry) : entry :=
    match at_off (e_list e) (e_off e) with
    | Some y => set_cur e y (e_off e - 1)
    | None =>
        match nth_error chain pos with
        | None => e
        | Some pg =>
            let '(e1, found) := scanPageB pg e (e_cur e) false in
            if found then e1
            else match pos with
                 | O => finish e1
                 | S p => match nth_error chain p with
                          | None => e1
                          | Some pg' =>
                              let l := lf_items pg' in let o := Z.of_nat (length l) - 1 in
                              set_cur (set_list (set_src e1 (Tree chain p)) l o) (listAt l o) (o - 1)
                          end
                 end
        end
    end.
  (** entryGetItem (rumget.c:1329-1368), backward: posting lists and trees. *)
  Definition getItemB (e : entry) : entry :=
    match e_src e with
    | Mem => match at_off (e_list e) (e_off e) with Some y => set_cur e y (e_off e - 1) | None => finish e end
    | Tree chain pos => getNextB chain pos e
    | Coll _ _ => e
    end.
  (** The while loop of entryFindItem (rumget.c:1949-1961), backward; [l]: the list up to the offset, last first. *)
  Fixpoint find_down (l : list item) (x : item) (o : Z) : option (item * Z) :=
    match l with
    | [] => None
    | y :: r => if cmp y x <=? 0 then Some (y, o) else find_down r x (o - 1)
    end.
  (** The last loop of entryFindItem (rumget.c:1999-2021), backward. *)
  Fixpoint find_left (chain : list (leaf A)) (pos : nat) (e : entry) (x : item) : entry :=
    match pos with
    | O => finish e
    | S p => match nth_error chain p with
             | None => e
             | Some pg => let '(e1, found) := scanPageB pg (set_src e (Tree chain p)) x true in
                          if found then e1 else find_left chain p e1 x
             end
    end.
  (** entryFindItem (rumget.c:1924-2022), backward. *)
  Definition findItemB (e : entry) (x : item) : entry :=
    if (length (e_list e) =? 0)%nat then set_fin e
    else
      let inlist :=
        if cmp (nth 0 (e_list e) item_min) x <=? 0 then
          if (cmp (e_cur e) x <=? 0) &&
             match at_off (e_list e) (e_off e) with
             | Some y => rumCompareItemPointers (ip (e_cur e)) (ip y) =? 0
             | None => false
             end
          then Some e
          else match (match at_off (e_list e) (e_off e) with
                      | Some _ => find_down (rev (firstn (S (Z.to_nat (e_off e))) (e_list e))) x (e_off e)
                      | None => None
                      end) with
               | Some (y, o) => Some (set_cur e y (o - 1))
               | None => None
               end
        else None in
      match inlist with
      | Some e' => e'
      | None =>
          match e_src e with
          | Tree chain pos =>
              match nth_error chain pos with
              | None => e
              | Some pg =>
                  let '(e1, found) := scanPageB pg e x true in
                  if found then e1
                  else
                    let p := e_refind e x in
                    match nth_error chain p with
                    | None => e1
                    | Some pg' =>
                        let '(e2, found') := scanPageB pg' (set_src e1 (Tree chain p)) x true in
                        if found' then e2 else find_left chain p e2 x
                    end
              end
          | _ => set_fin e
          end
      end.

  (** ** The fast scan in a direction *)
  Variable fwd : bool.
  Definition getDir (e : entry) : entry := if fwd then entryGetItem true addTo cmpA joinFn e else getItemB e.
  Definition findDir (e : entry) (x : item) : entry := if fwd then entryFindItem true addTo cmpA e x else findItemB e x.
  (** cmpEntries (rumget.c:730-752). *)
  Definition cmpEntDir (e1 e2 : entry) : Z :=
    if e_fin e1 then (if e_fin e2 then 0 else 1)
    else if e_fin e2 then -1
    else if negb (e_att e1 =? e_att e2)%N then (if (e_att e1 <? e_att e2)%N then 1 else -1)
    else cmpDir fwd (e_cur e1) (e_cur e2).
  (** "Restore order" and entryShift (rumget.c:2082-2123); see Scan.v. *)
  Fixpoint bubbleD (ents : list entry) (n : nat) (rpre post : list nat) : list nat :=
    match rpre with
    | [] => n :: post
    | p :: r => if 0 <? cmpEntDir (ent ents n) (ent ents p) then bubbleD ents n r (p :: post) else rev rpre ++ n :: post
    end.
  Definition entryShiftD (i : nat) (find : bool) (es : list entry * list nat) : list entry * list nat :=
    let '(ents, sorted) := es in
    match minPredict ents (skipn i sorted) i None with
    | None => es
    | Some (m, _) =>
        let n := nth m sorted O in
        let e := ent ents n in
        let e' := if find then findDir e (e_cur (ent ents (nth (i - 1) sorted O)))
                  else if e_fin e then e else getDir e in
        let ents' := update ents n (fun _ => e') in
        (ents', bubbleD ents' n (rev (firstn m sorted)) (skipn (S m) sorted))
    end.
  Definition shiftAllD (k : nat) (es : list entry * list nat) : list entry * list nat :=
    fold_left (fun s j => entryShiftD j false s) (seq k (length (snd es) - k)) es.
  (** The border loop (rumget.c:2158-2171). *)
  Fixpoint borderLoopD (ents : list entry) (keys : list (skey * kst)) (no : list nat) (prev : nat) (l : list nat) (i k : nat) : nat * nat * bool :=
    match l with
    | [] => (i, k, true)
    | n :: r =>
        if cmpEntDir (ent ents n) (ent ents prev) <? 0 then
          if preConsistentCheck keys (no ++ [prev]) then borderLoopD ents keys (no ++ [prev]) n r (S i) i
          else (i, i, false)
        else borderLoopD ents keys (no ++ [prev]) n r (S i) k
    end.
  (** The consistent calls (rumget.c:2189-2226). *)
  Fixpoint consistentLoopD (kpos : nat) (keys : list (skey * kst)) (es : list entry * list nat) (ok : bool)
    : list (skey * kst) * (list entry * list nat) * bool :=
    match keys with
    | [] => ([], es, ok)
    | (k, ks) :: r =>
        if sk_order k then
          let '(r', es', ok') := consistentLoopD kpos r es ok in ((k, ks) :: r', es', ok')
        else
          let p := ip (e_cur (ent (fst es) (last (snd es) O))) in
          let chk := checkAt (fst es) k p in
          let '(res, re) := callConsistentFn addTo k chk in
          let ks' := mkKst (ks_cur ks) (ks_match ks) re (ks_fin ks) (newOuter addTo k chk (ks_outer ks)) in
          let es1 := if res then es else shiftAllD kpos es in
          let '(r', es', ok') := consistentLoopD kpos r es1 (ok && res) in ((k, ks') :: r', es', ok')
    end.
  (** scanGetItemFast (rumget.c:2128-2245). *)
  Fixpoint fast_loopD (fuel : nat) (st : fst_ (A := A)) : option (fst_ (A := A) * item * bool) :=
    match fuel with
    | O => None
    | S f =>
        match f_sorted st with
        | [] => None
        | n0 :: r =>
            let '(i, k, pre) := borderLoopD (f_ents st) (f_keys st) [] n0 r 1 0 in
            if e_fin (ent (f_ents st) (nth (i - 1) (f_sorted st) O)) then None
            else if pre then
              let '(keys, es, ok) := consistentLoopD k (f_keys st) (f_ents st, f_sorted st) true in
              if ok then
                let re := existsb (fun kk => negb (sk_order (fst kk)) && ks_re (snd kk)) keys in
                Some (mkFst (fst es) (snd es) keys (Some k), e_cur (ent (fst es) (last (snd es) O)), re)
              else fast_loopD f (mkFst (fst es) (snd es) keys (f_incr st))
            else
              let '(ents, sorted) := entryShiftD i true (f_ents st, f_sorted st) in
              fast_loopD f (mkFst ents sorted (f_keys st) (f_incr st))
        end
    end.
  Definition scanGetItemFastD (st : fst_ (A := A)) : option (fst_ (A := A) * item * bool) :=
    let '(ents, sorted) := match f_incr st with
                           | None => (f_ents st, f_sorted st)
                           | Some k => shiftAllD k (f_ents st, f_sorted st)
                           end in
    fast_loopD (S (total_bound ents)) (mkFst ents sorted (f_keys st) (f_incr st)).
  Fixpoint runFastD (fuel : nat) (st : fst_ (A := A)) : list (item * bool) :=
    match fuel with
    | O => []
    | S f => match scanGetItemFastD st with
             | None => []
             | Some (st', x, re) => (x, re) :: runFastD f st'
             end
    end.
  (** One pass: startScan (rumget.c:793-911) on entries just found, then scanGetItem until it gives nothing. *)
  Definition startEntriesD (ents : list entry) : list entry := map (fun e => if e_fin e then e else getDir e) ents.
  Definition passD (sortEnts : list entry -> list nat) (ents : list entry) (keys : list skey) : list (item * bool) :=
    runFastD (S (total_bound ents))
      (mkFst (startEntriesD ents) (sortEnts (startEntriesD ents)) (map (fun k => (k, startScanKey)) keys) None).
End Nat.

(** rumgettuple with naturalOrder (rumget.c:2561-2624) and reverseScan (rumget.c:2534-2556): the pass in the direction
    of the ordering operator ([fwd]: |=>, otherwise <=|; btree_rum.c:243-247), then, the keys made anew, the pass in
    the other direction.  [v]: the operator's argument. *)
Definition naturalScan {A} (addTo : N) (cmpA : A -> A -> Z) (joinFn : joins A) (below : item A)
  (sortEnts : bool -> list (entry A) -> list nat) (fwd : bool) (v : A) (qs : list (qentry (A := A))) (keys : list (skey A)) : list (item A * bool) :=
  let pass d := passD addTo cmpA joinFn below d (sortEnts d) (map (startMark cmpA d (markItem v)) qs) keys in
  pass fwd ++ pass (negb fwd).
