# Formal model of postgrespro/rum in Rocq (Coq 8.16.1)

## Layout

`rocq/theories/` (logical name `Verif`). For each area `X`:

* `X.v` – the model: executable Gallina, no proofs, every definition cites the file and lines it models.
* `XSpec.v` (only where needed) – the small independent specification used in the theorem statements.
* `XProof.v` – lemmas.
* `Properties*.v` – the property theorems only: statement, `Proof. exact lemma. Qed.`, `Print Assumptions`,
  and beside each an `Example` showing a concrete non-trivial case meeting the hypotheses.

Theorem names start with the property id (`C01_...`). Suffix `_partial`: proved for less than the
full English property (what is missing is in the comment and in MANIFEST.json). Suffix `_refuted`: the
property is false of the faithful model; the theorem exhibits the witness, which is a finding about the code.

## Plan per property

| id | model | proof |
|----|-------|-------|
| C01 | byte-level writer and reader of rumdatapage.c / rum.h, both layouts | round trip by induction on the list; varbyte lemmas over N |
| C02 | size functions of rumdatapage.c | size = length of written bytes; worst case bound |
| C03 | compress_pos / decompress_pos / count_pos | round trip by induction, buffer bound |
| C04 | rum_ts_join_pos loop | sorted union by induction on fuel |
| C05 | compareRumItem, rumCompareItemPointers | order laws by case analysis |
| C06 | rumMergeRumItems | merge = sorted union, induction |
| C07 | findInLeafPage + updateItemIndexes | arithmetic of index ranges + linear search |
| C08 | dataPlaceToPage loop | induction over the merge loop |
| C09 | dataSplitPageLeaf | list split lemma |
| C10 | dataLocateItem / dataFindChildPtr binary searches | loop invariant by fuel induction |
| C11 | page store (block -> page) with rumInsertValue, rumFindLeafPage, splits | representation invariant, induction over histories |
| C12 | the same store, list of atomic steps of an insertion | invariant holds after every prefix of steps |
| C13 | rumFindParents on half-split tree | witness if the "lost path" error is reachable |
| C14 | rumVacuumPostingList at item and byte level | filter equality, size bound |
| C15 | VacuumTree.v: rumVacuumPostingTreeLeaves, rumDeletePage, rumScanToDelete, rumVacuumPostingTree on the page store, every logged change in the trace | structural invariant (VacTreeInv.v) kept by each change, equivalent to the B-tree invariant when no internal page is childless (VacTreeFrom.v, VacTreeTo.v) |
| C47 | same model; crash states | partial: crash of a vacuum that leaves no childless page; the rest refuted by computed histories (VacTreeExamples.v) |
| C48 | VacIndex.v: rumbulkdelete over the entry tree of EntryTree.v with the posting-tree vacuum of VacuumTree.v; LifeSpec.v: histories of INSERTs and VACUUMs | one invariant of the whole index kept by every INSERT and VACUUM (IndexProof.v, VacIndexProof.v), with the pairs stored under each key as ghost state (LifeProof.v); crash states inside VACUUM; not: crashes of an INSERT after a VACUUM (C44 has them before), statistics, free space map |
| C16,C17,C39 | rumbulk.c accumulator, build callback | insertion history equivalence; visit order is a permutation |
| C18,C19 | rumExtractEntries, comparators | sortedness/set equality, order laws |
| C20,C21 | entry tree on the same page-store scheme, addItemPointersToLeafTuple | invariant by histories |
| C44 | the records of rumEntryInsert as a list of index states | every state keeps the index invariant; induction over crash histories |
| C45 | C16's accumulator composed with C20's index | composition: calls handed over = rows of the table (C16, C39), index = calls (C20) |
| C22 | ScanEntry.v (one query key: list, tree, many keys), Scan.v (regular scan, bitmap of usual conditions) | ScanRegular.v: invariant "every entry stands at the first of its rows past the current one", output = filter of the specification ScanSpec.v; ScanBitmap.v for the attach-ordered index; wrong cases kept as `_refuted` |
| C23 | Scan.v (fast scan) | loop invariant: skipped rows are dead (no subset of their query keys satisfies the condition) |
| C24,C25,C26 | btree_rum.c (Scalar.v, ScalarTypes.v; on the whole index through IndexScan.v) | C24: the conditions as clauses of C46; C25, C26: case analysis, explicit machine ranges, any rounding to double. Refuted parts: char, interval; far timestamps, infinities, equal values for |=> |
| C27 | OrderScan.v: insertScanItem, keyGetOrdering, comparetup_rum, rumgettuple on top of IndexScan.v | the scan's views (C46) carry the remembered attached value and the ordering keys' answers; spreading of current values by induction; sort by its contract; restrictions in OrderSpec.orders_covered, four refuted cases outside them (OrderAlt.v: in an order_by_attach index a regular scan ordered by the attached column returns nothing, for every query) |
| C28 | NatScan.v (the two passes, setListPositionScanEntry, backward scanPage/entryGetNextItem/entryFindItem), NatSpec.v | fast-scan invariant redone over abstract entries in either direction (ScanFastD), entries in NatEntry, both passes in NatProof; PropNat.v states the positive part and refutes the rest on concrete page layouts |
| C41 | ScanEntry.v and Scan.v with the uninitialised `entry->list[0]` as an explicit item (`junk`), on the leaf chain of trees reached with vacuums | invariant of the scan from the first row on (`gives`, ScanRegular.v); the first row by induction over leading empty pages (ScanEntryProof.v junk_first); witnesses for the harmful memory contents |
| C29,C30 | Array.v: rum_arr_utils.c (extraction, search modes, consistent, ordering, similar, distance; float8 as SpecFloat binary64) on top of IndexScan.v and OrderScan.v | elements as strictly sorted lists; counts of checks = sizes of intersections; C46 and C27 give the scan; float8 facts (a similarity above a positive threshold needs a common element) on SpecFloat; two refuted statements |
| C31–C34,C42 | Tsq.v: rum_ts_utils.c ternary evaluator over tsquery trees, key extraction, pre-filter (PostgreSQL's own TS_execute, called by the pre-filter, is not in /repo and is written from PostgreSQL's source) | TsqSpec.v gives what a query means for a document; structural induction; the restrictions of C31/C34/C42 each have a `_refuted` witness |
| C35,C36 | Inverted.v: rumtsquery.c (operator tree, numbering, paths, extraction, the search over nodes) on top of IndexScan.v | byte round trip; occurrences of a word = steps read back; the node sums = count of true operands (tree induction over the nodes from the last); C46 gives the scan; four refuted cases (inner all-negative operation, weights, empty document, more than 256 operators) |
| C37 | IndexScan.v (clauses to scan keys) | case analysis; corollary of C46 |
| C38 | the two comparators, IndexScan.v | false: witness of a lost row |
| C46 | IndexScan.v: clauses to scan keys (rumscan.c), query keys looked up in the entry tree (startScanEntry, collectMatchBitmap), then the scans of Scan.v | composition of C45/C48 (index = table through INSERTs and VACUUMs; LifeQuery.v; the memory read on an empty first page is the model's `junk`), C10/C11 (descent), C22/C23 (scan = filter of found rows); restrictions in QuerySpec.covered |
| C49 | TextSearch.v: the tsvector classes as the index calls them (extraction with attached positions, the clause of a tsquery with its partial-match keys, search mode, consistent and pre-filter functions, joinAddInfo); tsquery_requires_match and gin_cmp_prefix from PostgreSQL's sources | composition of C46 (scan = rows satisfying the clauses) with C31-C34 and C42 (clause = match relation): what the scan shows for a query key is a join over the row's words the operand asks for; restrictions in TextSpec.v (those of C31 and, for several conditions, C23), outside of which rows are lost (_refuted) |
| C50 | TextOrder.v: the ordering column <=> tsquery given to the ordered scan of C47 (keys of the query, rum_tsquery_distance on what the scan shows of them), comparison of distances with infinity last | composition of C47 (rows sorted by the orderings), C49 (what the keys show of a row) and C43 (index distance = operator distance); the row whose keys describe the document is the one whose distance is given; restrictions in TextOrderSpec.v (ordered_fits, agreeing); phrases refuted |
| C51 | ScanConc.v: rumFindLeafPage, startScanEntry, entryGetNextItem with the t-th page read made on the t-th state of a schedule; the writers are the insertions of PostingTree.v, one at a time, every logged change a state (ScanConcSpec.v: inserting, observed) | pages keep their level and lower bound under every logged change (BTreeIns.v: evolve, grows); invariant of the reader: a row owed is in the copied page's rest or beyond both its last row and the page's lower bound; termination by a lexicographic measure (states left, leaves to the right, rows left); two refuted cases. PropScanOverlap.v: the same with the writers of C53 that overlap (every turn of a session is a `grows` step: BTreeConcProof.v oi_grows) |
| C52 | IndexConc.v: startScanEntry on the whole index (descent of the entry tree, then the tuple's posting list, or a scan of its posting tree as in C51), each page read on its own state; writers: rumEntryInsert of EntryTree.v, one call at a time, every logged change a state (IndexConcSpec.v: iinserting, isettled) | every logged change of rumEntryInsert keeps the pages of the entry tree and of every referenced posting tree on their level with their lower bound, keeps each key's tuple, never turns a posting tree back, and loses no row (IndexConcProof.v: igrow, ichain); the descent lemma and the scan lemma of C51 are then applied to the entry tree and to the posting tree from the moment the tuple was read |
| C53 | BTreeConc.v: rumFindLeafPage, rumInsertValue and rumFindParents cut at the page locks, each session a state (descending; split page locked and looking for the parent; parent locked and about to place the downlink), any interleaving; PostingTreeConc.v: the same with the page functions of a posting tree. Simplified: a split is one step on its three pages and waits for the right neighbour before it starts; shared locks are treated as exclusive; no vacuum, no page reuse; one row per session | invariant (BTreeConcProof.v: CI): the tree is sound but for the downlinks the sessions between two steps still owe, a page whose right neighbour has no downlink is locked by exactly the session that owes it; every step keeps it (act_ci); locks are taken upwards and to the right only, so the session holding the rightmost page of the highest level can go on (no_deadlock); every step that is not a wait finishes the session, or brings it one level up, or moves it right or down on an unchanged tree (prog), which bounds the number of such steps (less, fair_end) |
| C54 | Qsort.v: qsort_tuple of qsort_tuple.c (insertion sort below seven, check whether in order, median of three or of nine, three-way partition, vector swaps, recursion), on arrays as lists; SortItems.v: comparetup_rum on float8 with SpecFloat, the call from tuplesort_sort_memtuples. Simplified: the left part is sorted before the right one. Not modelled here: the sort on tape and its merge (C56), the parallel sort, the sort template of PostgreSQL 14 and later (not in this repository) | an invariant of the partition that needs nothing of the comparison gives the permutation; with antisymmetry and transitivity, induction on the length gives the order. The assumptions `sorter` and `sorts_items` of the query theorems are proved of this sort. A NaN distance leaves rows out of order; PropArrayDist.v shows by bounds on the float8 operations that the distances of arrays are never NaN, and where an attached value is missing that they are |
| C55 | FullScan.v: the full-index scan of a query without conditions: startScanEntry with scanWithAddInfo, entryGetNextItemList (the first tuple's rows are read twice), scanGetItemFull with insertScanItem's slots, comparetup_rum_true, rumgettuple; on the index of EntryTree.v. Simplified: a posting tree is read page after page; the first tuple is looked for along the right links. Not modelled: orderings by query keys, natural order | the tuples of column 1 are those the EVERYTHING key asks for, and each has rows (after INSERTs always; after VACUUM by the hypothesis column1_alive), so the lists hold every row, at a key of its own; memory that is read uninitialised is the argument junk; slots_spec (C27) gives the distances; equal addresses have equal vectors and are neighbours in the order of comparetup_rum_true, so rumgettuple's comparison with the row before removes all repetitions. Emptied posting lists, emptied first leaves (VACUUM) and attached values elsewhere refute it |
| C56 | Spill.v: runs on tapes and their merge: writetup/readtup with length words, the bytes of a RumSortItem, beginmerge, mergeonerun, the heap operations, the passes of mergeruns, for tuplesort15.c. Simplified: a run is read before its merge starts; tapes are given as the list of their runs, taken k at a time. Not modelled: logtape.c, memory accounting (any distribution to loads is allowed), parallel sorts, the polyphase merge of older versions | sift-up and sift-down keep the heap order (invariant: order everywhere but at the hole) and the multiset; the top is least; the merge loop's invariant: each tape with rows left has an entry in the heap, which is not greater than those rows; a run written is read back whatever follows it; with two tapes or more each pass leaves fewer runs |
| C57 | Validate.v: rumvalidate over lists of catalog rows (functions, operators, class), with check_amproc_signature, check_amop_signature and identify_opfamily_groups of PostgreSQL; the support functions initRumState asks for; the kind of ordering rumscan.c chooses. IsBinaryCoercible is a parameter. Not modelled: messages, catalog caches | the checks are reflected into a table of interfaces written separately; the function set by induction over the rows; refuted on rum_timestamptz_ops of version 1.0 for ORDER BY operators without a function |
| C58 | Options.v: the part of initRumState that reads attach, to and order_by_attach: get_attnum in table and index, the checks, the loop that chooses the attached type of each column. Names are numbers, get_attnum is position in a list. Not modelled: rumoptions (parsing), system columns | inversion of the checks against a separate specification (columns by position), induction over the columns; ALTER TABLE RENAME COLUMN as a map over the names, with and without the index's own columns following |
| C40 | TidBitmap.v: src/tidbitmap/tidbitmap17.c and rum_tbm_contains_tid | set inclusion over histories (PropBitmap.v); used by the scan in ScanBitmap.v |
| C43 | TsRank.v: Cover, calc_score_docr, calc_score, find_wordentry, get_docrep, get_docrep_addinfo, the distance functions; double and float4 are rationals (no rounding; the final cast and log are parameters) | PropRank.v: signs and reciprocal for all inputs; covers = minimal windows, by a simulation of the two scans (agreement of the up scan with NOT skipped and the down scan); closed form of the score; finite distance iff the query holds of the words; index = operator by relabelling twin occurrence lists.  Refuted cases: phrases in the index, stripped words, negated words that occur, repeated words |

## Trusted base (kept current)

Coq 8.16.1's kernel; the reading of the C source into Gallina (no code is run); what `Print Assumptions`
lists under each property theorem: "Closed under the global context" for every one of them.
The checker also reports the module parameters `Coq.ssr.ssrunder.Under_rel.*` of the standard library; these are
fields of a module type of Coq's own `ssr` library loaded through `Lia`'s `zify`; no theorem depends on them.

Not modelled: buffer manager, locks and latches (except in ScanConc.v, where their effect is modelled: one process reads pages one at a time while logged changes of serial insertions happen in between), WAL record contents (each GenericXLog record is one atomic step),
memory contexts, interrupts, palloc failures, floating-point rounding outside Array.v (there IEEE binary64 by the standard library's SpecFloat; elsewhere opaque values),
tuplesort internals (modelled as a stable/any sort by the comparator), SQL-level catalog checks.
