(** The bitmap of row addresses a scan builds (src/tidbitmap/tidbitmap17.c, the copy RUM compiles
    in for PostgreSQL 17; rumtidbitmap.c).  Model file: no proofs.
    Simplifications: the page table is an association list from page number to entry, the
    fixed slot entry1 (used while there is one entry) is a table of one; nentries and nchunks are
    counted from the table; an entry's words[] are one number; no iteration in progress. *)
From Verif Require Import Base.
From Coq Require Import NArith List Bool.
Import ListNotations.
Local Open Scope N_scope.

(** PagetableEntry (tidbitmap17.c:96-103) without its key. *)
Record pentry := mkPE { pe_chunk : bool; pe_recheck : bool; pe_bits : N }.
(** TIDBitmap (tidbitmap17.c:148-180): page table and maxentries. *)
Record tbm := mkTbm { tb_tab : list (N * pentry); tb_max : N }.

(** PAGES_PER_CHUNK (tidbitmap17.c:74) for BLCKSZ = 8192; MaxHeapTuplesPerPage for the same. *)
Definition PAGES_PER_CHUNK : N := 256.
Definition MAX_TUPLES_PER_PAGE : N := 291.

(** pagetable_lookup, pagetable_delete and pagetable_insert of the hash table (lib/simplehash.h). *)
Definition pt_lookup (k : N) (tab : list (N * pentry)) : option pentry :=
  option_map snd (find (fun e => fst e =? k) tab).
Definition pt_delete (k : N) (tab : list (N * pentry)) : list (N * pentry) :=
  filter (fun e => negb (fst e =? k)) tab.
Definition pt_set (k : N) (e : pentry) (tab : list (N * pentry)) : list (N * pentry) :=
  (k, e) :: pt_delete k tab.

(** nentries, nchunks. *)
Definition nentries (t : tbm) : N := N.of_nat (length (tb_tab t)).
Definition nchunks (t : tbm) : N := N.of_nat (length (filter (fun e => pe_chunk (snd e)) (tb_tab t))).

(** tbm_create (tidbitmap17.c:265-285); [maxentries] is tbm_calculate_entries of work_mem. *)
Definition tbm_create (maxentries : N) : tbm := mkTbm [] maxentries.

(** tbm_find_pageentry (tidbitmap17.c:1182-1206). *)
Definition tbm_find_pageentry (t : tbm) (pageno : N) : option pentry :=
  if nentries t =? 0 then None
  else match pt_lookup pageno (tb_tab t) with
       | None => None
       | Some p => if pe_chunk p then None else Some p
       end.

(** tbm_get_pageentry (tidbitmap17.c:1215-1257): the entry, created if it is missing. *)
Definition tbm_get_pageentry (t : tbm) (pageno : N) : tbm * pentry :=
  match pt_lookup pageno (tb_tab t) with
  | Some p => (t, p)
  | None => let p := mkPE false false 0 in (mkTbm (pt_set pageno p (tb_tab t)) (tb_max t), p)
  end.

(** tbm_page_is_lossy (tidbitmap17.c:1262-1288). *)
Definition tbm_page_is_lossy (t : tbm) (pageno : N) : bool :=
  if nchunks t =? 0 then false
  else
    let bitno := pageno mod PAGES_PER_CHUNK in
    match pt_lookup (pageno - bitno) (tb_tab t) with
    | Some p => pe_chunk p && N.testbit (pe_bits p) bitno
    | None => false
    end.

(** tbm_mark_page_lossy (tidbitmap17.c:1296-1363). *)
Definition tbm_mark_page_lossy (t : tbm) (pageno : N) : tbm :=
  let bitno := pageno mod PAGES_PER_CHUNK in
  let chunk_pageno := pageno - bitno in
  let tab := if bitno =? 0 then tb_tab t else pt_delete pageno (tb_tab t) in
  let page := match pt_lookup chunk_pageno tab with
              | None => mkPE true false 0
              | Some p => if pe_chunk p then p else mkPE true false 1
              end in
  mkTbm (pt_set chunk_pageno (mkPE (pe_chunk page) (pe_recheck page) (N.setbit (pe_bits page) bitno)) tab) (tb_max t).

(** The loop of tbm_lossify (tidbitmap17.c:1386-1418) over the page numbers [visited] the hash
    iteration yields.  Nothing is assumed about these: entries may be missed, and page numbers
    that are gone by now are passed over. *)
Fixpoint lossify_loop (visited : list N) (t : tbm) : tbm :=
  match visited with
  | [] => t
  | pageno :: rest =>
      match pt_lookup pageno (tb_tab t) with
      | None => lossify_loop rest t
      | Some p =>
          if pe_chunk p then lossify_loop rest t
          else if pageno mod PAGES_PER_CHUNK =? 0 then lossify_loop rest t
          else
            let t' := tbm_mark_page_lossy t pageno in
            if nentries t' <=? tb_max t' / 2 then t' else lossify_loop rest t'
      end
  end.
(** tbm_lossify (tidbitmap17.c:1368-1432). *)
Definition tbm_lossify (visit : tbm -> list N) (t : tbm) : tbm :=
  let t' := lossify_loop (visit t) t in
  if tb_max t' / 2 <? nentries t' then mkTbm (tb_tab t') (N.min (nentries t') 1073741823 * 2) else t'.

(** "if (nentries > maxentries) tbm_lossify" (tidbitmap17.c:427-432,447-449,531-532). *)
Definition shrink (visit : tbm -> list N) (t : tbm) : tbm :=
  if tb_max t <? nentries t then tbm_lossify visit t else t.

(** tbm_add_tuples (tidbitmap17.c:376-434) with ntids = 1, as RUM calls it (rumget.c:1551).
    [None]: elog(ERROR, "tuple offset out of range"). *)
Definition tbm_add_tuple (visit : tbm -> list N) (t : tbm) (tid : iptr) (recheck : bool) : option tbm :=
  if (off tid <? 1) || (MAX_TUPLES_PER_PAGE <? off tid) then None
  else if tbm_page_is_lossy t (blk tid) then Some t
  else
    let '(t, page) := tbm_get_pageentry t (blk tid) in
    let bit := if pe_chunk page then 0 else off tid - 1 in
    let page := mkPE (pe_chunk page) (pe_recheck page || recheck) (N.setbit (pe_bits page) bit) in
    Some (shrink visit (mkTbm (pt_set (blk tid) page (tb_tab t)) (tb_max t))).

(** tbm_add_page (tidbitmap17.c:442-450). *)
Definition tbm_add_page (visit : tbm -> list N) (t : tbm) (pageno : N) : tbm :=
  shrink visit (tbm_mark_page_lossy t pageno).

(** The pages marked in a chunk entry, in order (tidbitmap17.c:489-508,601-632). *)
Definition chunk_bits : list N := map N.of_nat (seq 0 256).

(** tbm_union_page (tidbitmap17.c:480-533). *)
Definition tbm_union_page (visit : tbm -> list N) (a : tbm) (blockno : N) (bpage : pentry) : tbm :=
  if pe_chunk bpage then
    shrink visit (fold_left (fun a k => if N.testbit (pe_bits bpage) k then tbm_mark_page_lossy a (blockno + k) else a)
                      chunk_bits a)
  else if tbm_page_is_lossy a blockno then a
  else
    let '(a, apage) := tbm_get_pageentry a blockno in
    let apage :=
      if pe_chunk apage then mkPE true (pe_recheck apage) (N.setbit (pe_bits apage) 0)
      else mkPE false (pe_recheck apage || pe_recheck bpage) (N.lor (pe_bits apage) (pe_bits bpage)) in
    shrink visit (mkTbm (pt_set blockno apage (tb_tab a)) (tb_max a)).
(** tbm_union (tidbitmap17.c:457-477); [iterate] gives the order of the hash iteration. *)
Definition tbm_union (visit : tbm -> list N) (iterate : list (N * pentry) -> list (N * pentry)) (a b : tbm) : tbm :=
  fold_left (fun a e => tbm_union_page visit a (fst e) (snd e)) (iterate (tb_tab b)) a.

(** tbm_intersect_page (tidbitmap17.c:588-663); [None]: the page is to be deleted. *)
Definition tbm_intersect_page (blockno : N) (apage : pentry) (b : tbm) : option pentry :=
  if pe_chunk apage then
    let neww := fold_left (fun w k =>
        if N.testbit (pe_bits apage) k && negb (tbm_page_is_lossy b (blockno + k)) &&
           match tbm_find_pageentry b (blockno + k) with None => true | Some _ => false end
        then N.clearbit w k else w) chunk_bits (pe_bits apage) in
    if neww =? 0 then None else Some (mkPE true (pe_recheck apage) neww)
  else if tbm_page_is_lossy b blockno then Some (mkPE false true (pe_bits apage))
  else match tbm_find_pageentry b blockno with
       | None => None
       | Some bpage =>
           let w := N.land (pe_bits apage) (pe_bits bpage) in
           if w =? 0 then None else Some (mkPE false (pe_recheck apage || pe_recheck bpage) w)
       end.
(** tbm_intersect (tidbitmap17.c:539-581). *)
Definition tbm_intersect (a b : tbm) : tbm :=
  mkTbm (flat_map (fun e => match tbm_intersect_page (fst e) (snd e) b with
                            | Some p => [(fst e, p)] | None => [] end) (tb_tab a)) (tb_max a).

(** rum_tbm_contains_tid (rumtidbitmap.c:127-152): result and *recheck. *)
Definition rum_tbm_contains_tid (t : tbm) (tid : iptr) : bool * bool :=
  if tbm_page_is_lossy t (blk tid) then (true, true)
  else match tbm_find_pageentry t (blk tid) with
       | Some page => (N.testbit (pe_bits page) (off tid - 1), false)
       | None => (false, false)
       end.
