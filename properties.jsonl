{"id": "C01", "title": "Posting lists read back exactly what was written", "statement": "A list of heap row addresses (block, offset) with optional attached values, in ascending row-address order, that the index writes into a posting list is read back as exactly the same list: same addresses, same order, same NULL flags, same attached values. The same holds for the attached-value-ordered layout, where addresses need not ascend.", "quantifier": "every finite list of row addresses over the full 32-bit block and legal offset range, every NULL pattern and every attached value", "why_tests_cant": "the encoding is a variable-length delta code over 2^48 addresses; a boundary error (7-bit carry, the NULL bit sharing a byte with the offset, wrap of the block delta) shows only at particular values", "anchors": ["src/rumdatapage.c:rumDataPageLeafWriteItemPointer", "src/rumdatapage.c:rumPlaceToDataPageLeaf", "src/rum.h:rumDataPageLeafReadItemPointer", "src/rum.h:rumDataPageLeafRead"]}
{"id": "C02", "title": "Space reserved for an item equals the space it takes", "statement": "The size the index computes before storing an item is exactly the number of bytes the store then writes, and the per-insert room check, which knows only the item and not its predecessor, is an upper bound of it; so an accepted insertion never writes past the page's free area.", "quantifier": "every item, every predecessor item, every amount of free space", "why_tests_cant": "needs every combination of predecessor and successor address, including those whose delta needs the maximal number of bytes", "anchors": ["src/rumdatapage.c:rumDataPageLeafGetItemPointerSize", "src/rumdatapage.c:rumCheckPlaceToDataPageLeaf", "src/rumdatapage.c:dataIsEnoughSpace"]}
{"id": "C03", "title": "Lexeme positions survive compression", "statement": "The word positions and weights of a lexeme stored as attached value are read back exactly: same positions, same weights, same count, and the compressed form fits the buffer allocated for it.", "quantifier": "every ascending list of 14-bit positions with every assignment of the four weights", "why_tests_cant": "deltas cross the 5-, 12- and 19-bit boundaries at specific values only; the buffer bound must hold for every list", "anchors": ["src/rum_ts_utils.c:compress_pos", "src/rum_ts_utils.c:decompress_pos", "src/rum_ts_utils.c:count_pos"]}
{"id": "C04", "title": "Joining two position lists is the ordered union", "statement": "When the same lexeme of the same row arrives twice, the joined attached value holds every position of either list exactly once, in ascending order, and nothing else.", "quantifier": "every pair of ascending position lists", "why_tests_cant": "all interleavings and overlaps of two unbounded lists", "anchors": ["src/rum_ts_utils.c:rum_ts_join_pos"]}
{"id": "C05", "title": "Index items have one total order", "statement": "The order in which the index keeps the rows of one key is a total order: reflexive, antisymmetric up to row address and attached value, transitive and total; in the default layout it is exactly row-address order, in the attach-ordered layout it is attached value first with NULL before every value, then row address.", "quantifier": "every pair and triple of items, both layouts", "why_tests_cant": "order laws quantify over all triples; page search is unsound at any violation", "anchors": ["src/rumdatapage.c:compareRumItem", "src/rum.h:rumCompareItemPointers", "src/rumutil.c:rumCompareItemPointers"]}
{"id": "C06", "title": "Adding rows to a posting list is set union", "statement": "Merging newly inserted rows into the rows already stored under a key yields, in index order, every row of either list exactly once; a row stored already keeps its stored attached value.", "quantifier": "every pair of sorted lists, of any lengths and overlap", "why_tests_cant": "all interleavings of two unbounded lists and the tie case at every place", "anchors": ["src/rumdatapage.c:rumMergeRumItems"]}
{"id": "C07", "title": "Leaf lookup finds a row iff it is stored", "statement": "A lookup in a posting-tree leaf reports found exactly when the row is on the page, whatever the number of rows on the page, and the sparse in-page index never hides a stored row.", "quantifier": "every sorted leaf content of any length, every row looked up, both layouts", "why_tests_cant": "the 32-entry sparse index is laid out by integer arithmetic depending on the number of rows; errors show only for particular counts and positions", "anchors": ["src/rumdatapage.c:findInLeafPage", "src/rumdatapage.c:updateItemIndexes"]}
{"id": "C08", "title": "Placing rows on a leaf page loses and duplicates nothing", "statement": "Adding a batch of rows to a leaf page leaves the page sorted and duplicate-free, holding every row it held before with its attached value unchanged plus exactly the consumed part of the batch; rows not consumed stay in the batch for a later page and the bytes used never exceed the page.", "quantifier": "every page content, every sorted batch, every free-space situation and every right bound", "why_tests_cant": "stop conditions (no room, right bound) can strike between any two rows", "anchors": ["src/rumdatapage.c:dataPlaceToPage"]}
{"id": "C09", "title": "A leaf split preserves the rows and separates them", "statement": "Splitting a full posting-tree leaf distributes exactly the old rows plus the new row over the two pages, in order; every row on the left page is at most the recorded separator, every row on the right page is greater, and neither page overflows.", "quantifier": "every full page content and every inserted row", "why_tests_cant": "split point depends on byte sizes of every row", "anchors": ["src/rumdatapage.c:dataSplitPageLeaf"]}
{"id": "C10", "title": "Descent reaches the page that can hold the row", "statement": "In an internal page of the posting tree the chosen child is the first whose recorded bound is not less than the row sought, or the last child; so the sought row cannot be in any other child.", "quantifier": "every sorted internal page of any fan-out, every row", "why_tests_cant": "binary search boundaries for every fan-out and every position", "anchors": ["src/rumdatapage.c:dataLocateItem", "src/rumdatapage.c:dataFindChildPtr", "src/rumdatapage.c:dataLocateLeafItem"]}
{"id": "C11", "title": "A posting tree holds exactly the inserted rows", "statement": "After any history of row insertions into a key's posting tree, including every leaf, internal and root split these cause, a scan of the tree returns exactly the set of inserted rows, once each, in index order, and a lookup finds a row iff it was inserted.", "quantifier": "every insertion history of any length, every page capacity, every tree depth", "why_tests_cant": "unbounded histories and depths; splits cascade only for particular key sequences", "anchors": ["src/rumdatapage.c:rumInsertItemPointers", "src/rumbtree.c:rumInsertValue", "src/rumbtree.c:rumFindLeafPage", "src/rumdatapage.c:rumScanBeginPostingTree"]}
{"id": "C12", "title": "No row is lost at a crash during an insertion", "statement": "If the server stops between any two atomically logged page changes of an insertion, the recovered tree still finds every row whose insertion had completed, finds the row being inserted iff its leaf change was logged, and finds nothing else.", "quantifier": "every tree reachable by insertions, every insertion, every crash point", "why_tests_cant": "crash points lie between individual log records; tests cannot place a crash there for every tree shape", "anchors": ["src/rumbtree.c:rumInsertValue", "src/rumbtree.c:rumFindLeafPage", "src/rumbtree.c:rumPageGetLinkItem"]}
{"id": "C13", "title": "A tree left half-split by a crash still accepts insertions", "statement": "After recovery from a crash between a page split and the addition of the new page to its parent, later insertions into the same key succeed.", "quantifier": "every reachable half-split tree and every later insertion", "why_tests_cant": "requires a crash at one particular point followed by a particular insertion history", "anchors": ["src/rumbtree.c:rumFindParents", "src/rumbtree.c:rumInsertValue", "src/rumbtree.c:findParents"]}
{"id": "C14", "title": "Vacuum of a posting list removes exactly the dead rows", "statement": "After vacuum, a key's posting list holds exactly the rows that the dead-row callback did not report, in the same order with the same attached values; the rewritten list is never longer in bytes than the old one; if no row is dead the list is unchanged.", "quantifier": "every posting list and every set of dead rows", "why_tests_cant": "re-encoding starts at the first removed row, so the delta base changes at a data-dependent place", "anchors": ["src/rumvacuum.c:rumVacuumPostingList", "src/rumvacuum.c:rumVacuumEntryPage"]}
{"id": "C15", "title": "Vacuum of a posting tree keeps every live row reachable", "statement": "After vacuum of a posting tree, including unlinking of emptied pages, a scan returns exactly the live rows in order and every live row is found by descent from the root; insertions and further vacuums go on working; emptied pages leave the leaf chain except the leftmost and rightmost, which are never removed. After each logged change of the vacuum a scan gives all live rows and only old rows.", "quantifier": "every tree reached by a build, insertions that complete and vacuums (completed, or cut by a crash that leaves no childless internal page); every set of dead rows; every logged change", "why_tests_cant": "which pages become empty depends on the dead set; unlinking touches siblings and parents", "anchors": ["src/rumvacuum.c:rumVacuumPostingTreeLeaves", "src/rumvacuum.c:rumScanToDelete", "src/rumvacuum.c:rumDeletePage"]}
{"id": "C16", "title": "Bulk build gives the same index for every memory budget", "statement": "CREATE INDEX stores under each key exactly the rows that contain it, whatever the points at which the in-memory accumulator is flushed to disk.", "quantifier": "every sequence of rows, every placement of flushes", "why_tests_cant": "flush points depend on memory use; all placements over all row sequences", "anchors": ["src/ruminsert.c:rumBuildCallback", "src/ruminsert.c:rumHeapTupleBulkInsert", "src/rumbulk.c:rumInsertBAEntries", "src/rumbulk.c:rumGetBAEntry"]}
{"id": "C17", "title": "The bulk accumulator takes in every key once", "statement": "The balanced order in which the accumulator inserts a row's keys visits every key exactly once for every number of keys.", "quantifier": "every number of keys", "why_tests_cant": "power-of-two boundary arithmetic over all n", "anchors": ["src/rumbulk.c:rumInsertBAEntries"]}
{"id": "C18", "title": "Key extraction stores each distinct key of a row once", "statement": "For an indexed value, the stored keys are strictly ascending and duplicate-free and are exactly the distinct keys the operator class extracted, NULL keys last; a NULL value gives exactly one NULL placeholder and a value without keys exactly one empty placeholder.", "quantifier": "every extraction result of any length, every NULL pattern", "why_tests_cant": "all lists, all multiplicities, all NULL patterns", "anchors": ["src/rumutil.c:rumExtractEntries", "src/rumutil.c:cmpEntries"]}
{"id": "C19", "title": "Keys have one total order across columns and placeholders", "statement": "Keys of the entry tree are totally ordered by column, then regular key < NULL key < empty placeholder < NULL placeholder, then operator-class order.", "quantifier": "every pair and triple of keys", "why_tests_cant": "order laws over all triples", "anchors": ["src/rumutil.c:rumCompareEntries", "src/rumutil.c:rumCompareAttEntries"]}
{"id": "C20", "title": "The entry tree finds exactly the stored keys", "statement": "After any history of key insertions, a key search finds the key iff it was inserted, and reports the rows stored with it; page splits neither lose nor duplicate keys and keep key order.", "quantifier": "every insertion history and every page capacity", "why_tests_cant": "unbounded histories, split points depending on tuple sizes", "anchors": ["src/rumentrypage.c:entryLocateEntry", "src/rumentrypage.c:entryLocateLeafEntry", "src/rumentrypage.c:entrySplitPage", "src/rumentrypage.c:entryIsMoveRight"]}
{"id": "C21", "title": "Growing a key from posting list to posting tree loses nothing", "statement": "When the rows of a key outgrow an inline posting list and are moved to a posting tree, the key afterwards holds exactly the old rows and the new rows.", "quantifier": "every old list, every batch of new rows, every size limit", "why_tests_cant": "the switch occurs at a data-dependent byte size", "anchors": ["src/ruminsert.c:addItemPointersToLeafTuple", "src/ruminsert.c:buildFreshLeafTuple", "src/ruminsert.c:rumEntryInsert"]}
{"id": "C22", "title": "A regular index scan returns exactly the matching rows", "statement": "A scan returns, in ascending row order and once each, exactly the rows for which every search condition's match decision on the set of query keys present in the row is true.", "quantifier": "every index content, every number of conditions and query keys, every match function that is false when no query key is present", "why_tests_cant": "multi-way merge of unbounded lists with data-dependent skipping", "anchors": ["src/rumget.c:scanGetItemRegular", "src/rumget.c:keyGetItem", "src/rumget.c:entryGetItem"]}
{"id": "C23", "title": "Fast scan and regular scan agree", "statement": "The optimised scan used with pre-filtering returns the same rows as the regular scan.", "quantifier": "every index content, every query", "why_tests_cant": "data-dependent skipping by pre-filter over all orders of list heads", "anchors": ["src/rumget.c:scanGetItemFast", "src/rumget.c:preConsistentCheck", "src/rumget.c:entryShift", "src/rumget.c:entryFindItem"]}
{"id": "C24", "title": "Scalar comparison operators return exactly the rows satisfying them", "statement": "For a scalar operator class, the keys visited for col < c, col <= c, col = c, col >= c and col > c are exactly the stored keys satisfying the operator, provided the class's start value is not above any value.", "quantifier": "every sorted key set, every constant, all five operators", "why_tests_cant": "all positions of the constant relative to all keys", "anchors": ["src/btree_rum.c:rum_btree_compare_prefix", "src/btree_rum.c:rum_btree_extract_query", "src/rumget.c:collectMatchBitmap"]}
{"id": "C25", "title": "The start value of every scalar class is minimal", "statement": "For each scalar operator class the value at which a `<` or `<=` scan starts is not above any storable value in the class's own comparison order.", "quantifier": "every value of each indexed scalar type", "why_tests_cant": "a wrong start value loses only rows below it", "anchors": ["src/btree_rum.c:leftmostvalue_*"]}
{"id": "C26", "title": "Scalar distance operators are true distances", "statement": "`<=>` on integers, floats, money, oid and timestamps is symmetric, non-negative and zero exactly on equal values (up to rounding to double); `<=|` equals it when the stored value is not above the argument and is infinite otherwise, and `|=>` symmetrically.", "quantifier": "every pair of values of the type", "why_tests_cant": "overflow happens only near the ends of the ranges", "anchors": ["src/btree_rum.c:RUM_*_DISTANCE", "src/rum_ts_utils.c:rum_timestamp_distance"]}
{"id": "C27", "title": "Distance-ordered scans are sorted and duplicate-free", "statement": "After CREATE INDEX and any INSERTs, a query with conditions and ORDER BY distances returns each row satisfying the conditions exactly once, in non-decreasing (lexicographic) order of the distance vectors, and every reported distance is the row's true distance to the ordering's argument (by the attached value, by the row's own key, or by what the operator class computes from the ordering's query keys); NULLs are infinitely far.", "quantifier": "every table, every set of conditions and orderings, every row, ties and any sort algorithm", "why_tests_cant": "all permutations and ties", "anchors": ["src/rumget.c:insertScanItem", "src/rumget.c:keyGetOrdering", "src/rumget.c:rumgettuple", "src/rumsort.c:comparetup_rum", "src/rumscan.c:rumFillScanKey"]}
{"id": "C28", "title": "Order-by-attach scans without sort return every row, nearest first", "statement": "In an attach-ordered index a one-sided distance scan (`<=|` or `|=>`) without a sort step returns every matching row once, first the rows on the requested side in order of distance, then the others.", "quantifier": "every index content, every argument", "why_tests_cant": "the start position falls between any two rows, pages or at page ends", "anchors": ["src/rumget.c:rumgettuple", "src/rumget.c:setListPositionScanEntry", "src/rumget.c:startScanEntry", "src/rumget.c:entryGetNextItem", "src/rumscan.c:initScanKey"]}
{"id": "C29", "title": "Array overlap and containment are exact", "statement": "`&&` and `@>` answered from the index without recheck agree with the operators on the arrays themselves; `<@` and `=` never lose a row and ask for recheck.", "quantifier": "every indexed array and every query array", "why_tests_cant": "all arrays with duplicates, empty arrays and NULL-free contents", "anchors": ["src/rum_arr_utils.c:rum_anyarray_consistent", "src/rum_arr_utils.c:rum_extract_anyarray", "src/rum_arr_utils.c:rum_extract_anyarray_query"]}
{"id": "C30", "title": "Array similarity from the index equals array similarity", "statement": "`%` answered from the index without recheck agrees with the `%` operator on the arrays, for every similarity function and threshold; the index distance equals the `<=>` function.", "quantifier": "every indexed array, query array, similarity kind and threshold", "why_tests_cant": "all arrays and all real thresholds including the ends", "anchors": ["src/rum_arr_utils.c:getSimilarity", "src/rum_arr_utils.c:rum_anyarray_similar", "src/rum_arr_utils.c:rum_anyarray_ordering", "src/rum_arr_utils.c:rum_anyarray_distance"]}
{"id": "C31", "title": "Full-text matches are never lost and never invented", "statement": "For `tsvector @@ tsquery`, a row that matches is never rejected by the index, and a row accepted without recheck matches.", "quantifier": "every tsvector and every tsquery built from AND, OR, NOT, phrase and weighted or prefix operands", "why_tests_cant": "unbounded query trees and documents, three-valued logic under nested negation", "anchors": ["src/rum_ts_utils.c:rum_tsquery_consistent", "src/rum_ts_utils.c:rum_TS_execute", "src/rum_ts_utils.c:checkcondition_rum"]}
{"id": "C32", "title": "Phrase search uses positions correctly", "statement": "With stored positions, the phrase operator `<n>` accepts a row exactly when some position of the right side is n after a position of the left side, for nested AND, OR, NOT and phrase operands as PostgreSQL defines it.", "quantifier": "every position list and nesting of operators", "why_tests_cant": "unbounded nesting, width accounting and negated match sets", "anchors": ["src/rum_ts_utils.c:rum_phrase_execute", "src/rum_ts_utils.c:rum_phrase_output"]}
{"id": "C33", "title": "Full-text pre-filter never rejects a possible match", "statement": "The pre-filter run on partial knowledge of which query words are present never rejects when some completion of the unknown part matches.", "quantifier": "every query tree, every assignment of known and unknown words", "why_tests_cant": "exponentially many completions for unbounded trees", "anchors": ["src/rum_ts_utils.c:rum_tsquery_pre_consistent", "src/rum_ts_utils.c:pre_checkcondition_rum", "src/rum_arr_utils.c:rum_anyarray_preconsistent"]}
{"id": "C34", "title": "Query words shared by operands are looked up correctly", "statement": "Every operand of a tsquery is mapped to an index key that has the operand's word and its exact or prefix mode, so operands with the same word but different prefix mode do not influence each other.", "quantifier": "every tsquery", "why_tests_cant": "depends on order and duplication of operands in the query text", "anchors": ["src/rum_ts_utils.c:rum_extract_tsquery", "src/rum_ts_utils.c:SortAndUniqItems"]}
{"id": "C35", "title": "Inverted tsquery encoding round-trips", "statement": "The operator path attached to each word of an indexed tsquery is read back exactly as written, including node numbers, arity and negation.", "quantifier": "every path of any length and every node number", "why_tests_cant": "variable-byte boundaries", "anchors": ["src/rumtsquery.c:encode_varbyte", "src/rumtsquery.c:decode_varbyte", "src/rumtsquery.c:calc_wraps", "src/rumtsquery.c:extract_wraps", "src/rumtsquery.c:ruminv_tsvector_consistent"]}
{"id": "C36", "title": "Inverted search finds exactly the queries the document satisfies", "statement": "`tsvector` against indexed tsqueries returns a stored query iff the document satisfies it.", "quantifier": "every stored tsquery and every document", "why_tests_cant": "all boolean trees including negation", "anchors": ["src/rumtsquery.c:ruminv_tsvector_consistent", "src/rumtsquery.c:ruminv_extract_tsquery", "src/rumtsquery.c:ruminv_extract_tsvector", "src/rumtsquery.c:make_query_item_wrap", "src/rumtsquery.c:check_allnegative"]}
{"id": "C37", "title": "NULL and empty queries follow the operator's strictness", "statement": "A NULL argument returns no row; a query with no keys returns no row in the default mode and scans the whole index in the modes that ask for it; in no mode is a row returned that lacks the keys the mode requires.", "quantifier": "every extraction result and search mode", "why_tests_cant": "combinatorial interaction of search mode, NULL keys and empty key lists", "anchors": ["src/rumscan.c:rumFillScanKey", "src/rumscan.c:rumNewScanKey", "src/rumscan.c:fillMarkAddInfo"]}
{"id": "C38", "title": "Attach order treats NULL the same everywhere", "statement": "Wherever rows of a key are put in attach order, whether on a page or in memory, rows with NULL attached value have the same place, so that merging two lists loses no row.", "quantifier": "every pair of lists with any NULL pattern", "why_tests_cant": "only mixed NULL and non-NULL lists from different sources expose a disagreement", "anchors": ["src/rumdatapage.c:compareRumItem", "src/tuplesort:comparetup_rumitem", "src/rumget.c:entryGetItem"]}
{"id": "C39", "title": "Bulk build delivers rows of a key in index order", "statement": "The rows the accumulator hands over for a key are sorted in the order the index keeps and free of duplicates, also when heap rows arrive out of row order.", "quantifier": "every arrival order of rows, both layouts, every column", "why_tests_cant": "arrival order differs from row order only in particular heap histories", "anchors": ["src/rumbulk.c:rumCombineData", "src/rumbulk.c:rumGetBAEntry", "src/rumbulk.c:qsortCompareRumItem"]}
{"id": "C40", "title": "Bitmap scan with memory limits stays a superset", "statement": "Collecting keys in a bitmap that may degrade to whole pages never loses a row; rows from exact pages are exactly those added.", "quantifier": "every set of rows and every point of degradation", "why_tests_cant": "degradation depends on memory", "anchors": ["src/rumtidbitmap.c:rum_tbm_contains_tid", "src/rumget.c:rumgetbitmap", "src/rumget.c:collectMatchBitmap"]}
{"id": "C41", "title": "Empty pages left by vacuum are harmless to scans", "statement": "A scan that starts on or walks over a posting-tree page emptied by vacuum reads no item that is not stored and returns exactly the stored rows.", "quantifier": "every reachable tree with empty leftmost or rightmost pages, both directions", "why_tests_cant": "needs vacuum to empty an end page before the scan", "anchors": ["src/rumget.c:startScanEntry", "src/rumget.c:entryGetNextItem", "src/rumvacuum.c:rumDeletePage"]}
{"id": "C42", "title": "Hash-addressed lexemes", "statement": "With the hashed operator classes a matching row is never lost, and rows returned without recheck match.", "quantifier": "every pair of lexemes including hash collisions", "why_tests_cant": "collisions are astronomically rare in tests", "anchors": ["src/rum_ts_utils.c:rum_extract_tsvector_hash", "src/rum_ts_utils.c:rum_extract_tsquery_hash"]}
{"id": "C43", "title": "Relevance distance is well behaved, and the same with and without the index", "statement": "The full-text score is non-negative; the distance is its reciprocal, positive, and infinite exactly when the score is zero; the distance is finite exactly for documents that match the query (weights apart) and contain one of its words; the score is the sum over the minimal windows of the document that match the query, each adding a positive amount; the distance an index scan orders by is the one the <=> operator computes.", "quantifier": "every document, query, normalisation method, every order in which the sort leaves ties", "why_tests_cant": "unbounded position lists and queries; the cover search restarts and skips, and the two code paths (operator, index) represent occurrences differently", "anchors": ["src/rum_ts_utils.c:Cover", "src/rum_ts_utils.c:calc_score_docr", "src/rum_ts_utils.c:calc_score", "src/rum_ts_utils.c:get_docrep", "src/rum_ts_utils.c:get_docrep_addinfo", "src/rum_ts_utils.c:find_wordentry", "src/rum_ts_utils.c:rum_tsquery_distance", "src/rum_ts_utils.c:rum_ts_distance_tt", "src/rum_ts_utils.c:rum_ts_score_tt"]}
{"id": "C44", "title": "A crash leaves the index complete", "statement": "If the server stops after any logged change of an insertion, however often that happens, a search for any key returns every row of the completed insertions and no row that was never inserted, in order and without duplicates; of the interrupted insertion at most a prefix of the rows of the key being added is there.", "quantifier": "every history of insertions, every crash point in each of them, every key", "why_tests_cant": "crash points multiply with page splits at every level of two kinds of trees and with earlier unrepaired crashes", "anchors": ["src/ruminsert.c:rumEntryInsert", "src/ruminsert.c:addItemPointersToLeafTuple", "src/rumbtree.c:rumInsertValue", "src/rumentrypage.c:entrySplitPage"]}
{"id": "C45", "title": "A search agrees with the table", "statement": "After CREATE INDEX on a table and any INSERTs, a search for any key returns exactly the rows of the table that contain the key, once each, in index order, with the attached value of the row.", "quantifier": "every table, every memory budget of the build, every later insertion, every key", "why_tests_cant": "depends on all row sets, flush points and page layouts together", "anchors": ["src/ruminsert.c:rumbuild", "src/ruminsert.c:ruminsert", "src/ruminsert.c:rumEntryInsert", "src/rumbulk.c:rumInsertBAEntries"]}
{"id": "C46", "title": "A query returns exactly the table's rows satisfying it", "statement": "After CREATE INDEX on a table and any INSERTs, an index query with any list of conditions (exact keys, NULL keys, partial match, whole-column and empty-item search modes, conditions on the attached column) returns the address of a row iff the row satisfies all conditions, each row once, and marks it for recheck iff a condition asked for that.", "quantifier": "every table, build and insertion history, every operator class following its contract, every query", "why_tests_cant": "depends on all tables, page layouts, query shapes and match functions together", "anchors": ["src/rumscan.c:rumNewScanKey", "src/rumscan.c:rumFillScanKey", "src/rumget.c:startScanEntry", "src/rumget.c:collectMatchBitmap", "src/rumget.c:scanGetItem", "src/rumget.c:rumgetbitmap"]}
{"id": "C47", "title": "Vacuum after crashes", "statement": "After a crash in an insertion or in a vacuum of a posting tree, later vacuums remove every row reported dead, and lookups and insertions go on seeing every live row.", "quantifier": "every crash point of every insertion and vacuum; every dead set", "why_tests_cant": "the failing states need a crash between two particular log records and trees of three levels", "anchors": ["src/rumvacuum.c:rumDeletePage", "src/rumvacuum.c:rumScanToDelete", "src/rumbtree.c:rumInsertValue"]}
{"id": "C48", "title": "Index stays exact through INSERTs and VACUUMs", "statement": "After CREATE INDEX on any table and then any sequence of INSERTs and VACUUMs, in which a heap address is used again only after a VACUUM removed its row, no operation fails and a search for any key finds exactly the rows now in the table that contain the key, once each, in index order, with their attached values; after a crash at any point of a VACUUM, searches find only rows of the table with the key and every one that was not reported dead.", "quantifier": "every table, key set, column order, sequence of INSERTs and VACUUMs, set of dead rows and crash point of a VACUUM", "why_tests_cant": "the storage of a key moves between list, tree and emptied tree; which pages are emptied, unlinked and refilled depends on the whole history", "anchors": ["src/rumvacuum.c:rumbulkdelete", "src/rumvacuum.c:rumVacuumEntryPage", "src/rumvacuum.c:rumVacuumPostingTree", "src/ruminsert.c:rumEntryInsert"]}
{"id": "C49", "title": "Full-text search returns the matching rows", "statement": "A query column @@ tsquery (or several, joined by AND) on an index with tsvector columns returns every row of the table whose document matches, no row twice, and no row without a document; a returned row matches unless the executor is told to check it again, which for the classes that keep positions happens only for weights under a NOT or lexemes stripped of positions.", "quantifier": "every table, history of INSERTs and VACUUMs, document and query (AND, OR, NOT, phrase, weights, prefixes; conditions of the restrictions named in the theorem), plain, hashed and addon classes, fast or regular scan", "why_tests_cant": "the answer passes through key extraction, key lookup, prefix ranges, joining of position lists, pre-filter and three-valued execution of the query, for every document and query", "anchors": ["src/rum_ts_utils.c:rum_extract_tsvector", "src/rum_ts_utils.c:rum_extract_tsquery", "src/rum_ts_utils.c:rum_tsquery_consistent", "src/rum_ts_utils.c:rum_tsquery_timestamp_consistent", "src/rumget.c:scanGetItemFast", "rum_init.sql"]}
{"id": "C50", "title": "ORDER BY relevance through the index", "statement": "A query column @@ tsquery ... ORDER BY column <=> tsquery, ... answered by an index of tsvector columns with positions returns each matching row once, in ascending order of distance; the distances are positive, finite exactly for documents of which the (phrase-free) query holds, and for queries without phrases, prefixes and repeated words the order is that of the distances the <=> operator computes from the documents.", "quantifier": "every table, history of INSERTs and VACUUMs, list of conditions and orderings within the restrictions named in the theorem", "why_tests_cant": "the distance is computed from the positions stored in the index by code different from the operator's, and the order must hold for every pair of rows of every table", "anchors": ["src/rumget.c:insertScanItem", "src/rumget.c:keyGetOrdering", "src/rumsort.c:comparetup_rum", "src/rum_ts_utils.c:rum_tsquery_distance", "src/rum_ts_utils.c:rum_ts_distance"]}
{"id": "C51", "title": "A scan running while rows are inserted", "statement": "While a query reads the rows of a key from a posting tree page by page, other processes may insert rows into the same tree between any two of its page reads; their insertions may be cut short or overlap one another. The query ends without error, returns rows in ascending order without repetition, misses no row that was in the tree when the scan read its first page, and returns only rows that are in the tree; a descent for a row finds it if it was there before the descent began. (False in two cases, shown by theorems: the scan never ends when the tree's only page turns into an internal page after the scan copied it, and the fast scan returns rows again when a page is split under it.)", "quantifier": "every tree reached by insertions and crashes, every sequence of further insertions, every schedule of the scan's page reads between their logged changes", "why_tests_cant": "an interleaving is chosen by the scheduler: between any two page reads any number of splits may happen, at any place of the tree", "anchors": ["src/rumget.c:entryGetNextItem", "src/rumget.c:startScanEntry", "src/rumget.c:scanPage", "src/rumbtree.c:rumFindLeafPage", "src/rumbtree.c:rumStep", "src/rumbtree.c:rumInsertValue"]}
{"id": "C52", "title": "A query running while rows are inserted into the index", "statement": "While a query for a key runs, other processes may insert rows under this and any other key between any two of its page reads; the key's tuple may move to another page or from a posting list to a posting tree, the index pages may split, and an insertion may be cut short. The query ends without error; it returns rows in index order without repetition, among them every row whose insertion was complete when the query began, and only rows inserted with that key. (Needs that the key's posting tree does not grow from one page to several between two page reads of the query: C51 shows it then never ends.)", "quantifier": "every index reached by insertions and crashes, every key, every sequence of further insertions of any keys, every schedule of the query's page reads between their logged changes", "why_tests_cant": "the interleaving of the reader's page reads with the writer's changes is the scheduler's choice; the descent of the entry tree, the conversion of a list into a tree and the page splits can meet in unboundedly many ways", "anchors": ["src/rumget.c:startScanEntry", "src/rumget.c:entryGetItem", "src/rumget.c:entryGetNextItem", "src/rumbtree.c:rumFindLeafPage", "src/ruminsert.c:rumEntryInsert", "src/ruminsert.c:addItemPointersToLeafTuple"]}
{"id": "C53", "title": "Sessions inserting into one posting tree at the same time", "statement": "Any number of sessions insert one row each into the posting tree of a key at the same time; their page accesses are interleaved in any way the page locks allow, and several of them may be in the middle of page splits. No session fails (neither with 'Lost path' nor on a missing page); at every moment a search finds exactly the rows the tree had at the start and those of the sessions that have changed their leaf, in order and each once; a row found once is found ever after; sessions never wait for each other in a circle, and all of them finish if each gets its turn again and again; and when all are done the tree takes further insertions without error.", "quantifier": "every column type and ordering, every initial content of one page, every list of rows, every schedule of the sessions' steps, of any length", "why_tests_cant": "the number of interleavings is unbounded and the scheduler's choice; a lost downlink needs two splits of neighbouring pages to meet at one moment", "anchors": ["src/rumbtree.c:rumFindLeafPage", "src/rumbtree.c:rumInsertValue", "src/rumbtree.c:rumFindParents", "src/rumbtree.c:rumStep", "src/rumdatapage.c:dataFindChildPtr", "src/rumdatapage.c:rumInsertItemPointers"]}
{"id": "C54", "title": "The sort of the rows found keeps every row and puts them in order", "statement": "The in-memory sort that ORDER BY queries and scans use gives out every row put in, each once, whatever the comparison says; when the comparison is an order on the rows, they come out in it. For ORDER BY distances that are float8 numbers other than NaN, no row comes after one whose distance vector is larger.", "quantifier": "every number of rows, every comparison function, every list of distance vectors of equal length", "why_tests_cant": "the sort chooses its pivots by the number and arrangement of the rows (below 7, up to 40, above; already in order; many equal), so the cases are unbounded", "anchors": ["src/qsort_tuple.c:qsort_tuple", "src/qsort_tuple.c:med3_tuple", "src/rumsort.c:comparetup_rum", "src/tuplesort13.c:tuplesort_sort_memtuples"]}
{"id": "C55", "title": "ORDER BY distance without conditions returns the whole table in order", "statement": "After CREATE INDEX and any INSERTs, deletions and VACUUMs that leave at least one row to every key of the first column and to the first leaf of each of its posting trees, a query with ORDER BY distances (to the attached value, or to the key of the first column) and no conditions returns every row of the table exactly once, in the order of its distances, the distances it reports are the rows' true ones (infinity for NULL), and no row is to be checked again.", "quantifier": "every table and history of INSERTs, deletions and VACUUMs, every operator class whose distance functions agree on equal keys, every list of orderings of one kind, every size", "why_tests_cant": "whether all lists are read, once, and how rows with several keys are given out depends on the sizes and on the arrangement of all keys; and VACUUM leaves keys without rows that this scan trips over", "anchors": ["src/rumget.c:scanGetItemFull", "src/rumget.c:entryGetNextItemList", "src/rumget.c:startScanEntry", "src/rumget.c:insertScanItem", "src/rumget.c:rumgettuple", "src/rumsort.c:comparetup_rum_true", "src/rumscan.c:rumNewScanKey"]}
{"id": "C56", "title": "Sorting rows that do not fit work_mem", "statement": "When the rows found by an ORDER BY query do not fit work_mem and are sorted through temporary files, the same rows come out as went in, each once, with their distances and recheck flags, and never a row after one with a larger vector of distances; whatever the comparison says (NaN), no row is lost or repeated.", "quantifier": "every number of rows and of distances, every distribution of the rows to memory loads, every number of tapes from two on, every comparison (order: every one that is an order on the rows)", "why_tests_cant": "the merge runs over heaps and tapes whose states depend on all rows, on work_mem and on the number of passes; tests rarely spill at all", "anchors": ["src/rumsort.c:writetup_rum", "src/rumsort.c:readtup_rum", "src/rumsort.c:rum_item_size", "src/rumsort.h:RumSortItemSize", "src/tuplesort15.c:mergeruns", "src/tuplesort15.c:mergeonerun", "src/tuplesort15.c:tuplesort_heap_insert", "src/tuplesort15.c:tuplesort_heap_replace_top", "src/tuplesort15.c:tuplesort_heap_delete_top", "src/tuplesort15.c:dumptuples"]}
{"id": "C57", "title": "amvalidate accepts exactly the operator classes that have the interface", "statement": "amvalidate on an operator class of the access method is true exactly if every support function of the family is registered with equal types, those of the class return and take the types of their support number (with the arguments that may be left out), every operator has a strategy number of 1 to 63, two arguments and the result of its purpose, and extractValue, extractQuery and consistent are registered for the class. An index on a column of an accepted class can be opened if its type has a comparison, and ORDER BY on such a column is by attached values for tsvector and arrays and by the column's value otherwise. A class with ORDER BY operators but no function to order by should not be accepted (it is: refuted).", "quantifier": "every operator class, every list of functions and operators of its family, every binary-coercibility relation between types", "why_tests_cant": "a test validates the classes that ship; the check must hold of every family's catalog rows", "anchors": ["src/rumvalidate.c:rumvalidate", "src/rumutil.c:initRumState", "src/rumscan.c:rumFillScanKey"]}
{"id": "C58", "title": "The options attach, to and order_by_attach are accepted exactly when they fit, and keep working", "statement": "An index WITH (attach, to, order_by_attach) can be opened exactly if both columns are named, are different columns of the table and of the index, the one attached to has an operator class without attached values of its own, and with order_by_attach the attached one is passed by value; the entries of each column then carry values of the attached column's type where asked for and what the class asks for elsewhere. Renaming columns should not change this (it holds for other columns; renaming a column named in the options is refuted: the index can no longer be opened).", "quantifier": "every table, every index with distinct column names, every combination of options, every renaming", "why_tests_cant": "the checks must hold of every combination of options and columns; a renaming after CREATE INDEX is a history no test covers", "anchors": ["src/rumutil.c:initRumState", "src/rumutil.c:rumoptions"]}
