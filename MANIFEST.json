{
 "claims": [
  {
   "property": "C01",
   "status": "proved",
   "theorems": [
    "C01_posting_list_round_trip"
   ],
   "note": "Byte-level codec, both layouts, all attribute kinds (by value, fixed, varlena with/without packing)."
  },
  {
   "property": "C02",
   "status": "proved",
   "theorems": [
    "C02_item_size_exact",
    "C02_list_size_exact",
    "C02_room_check_bounds_write"
   ],
   "note": ""
  },
  {
   "property": "C03",
   "status": "proved",
   "theorems": [
    "C03_positions_roundtrip"
   ],
   "note": "Positions 1..16383 strictly ascending, weights 0..3, as tsvector guarantees."
  },
  {
   "property": "C04",
   "status": "proved",
   "theorems": [
    "C04_join_is_union"
   ],
   "note": "Equal positions: the first list's weight is kept."
  },
  {
   "property": "C05",
   "status": "proved",
   "theorems": [
    "C05_total_order",
    "C05_default_layout_is_row_order",
    "C05_attach_layout"
   ],
   "note": ""
  },
  {
   "property": "C06",
   "status": "proved",
   "theorems": [
    "C06_merge_is_union"
   ],
   "note": ""
  },
  {
   "property": "C07",
   "status": "proved",
   "theorems": [
    "C07_leaf_lookup",
    "C07_index_fits"
   ],
   "note": ""
  },
  {
   "property": "C08",
   "status": "partial",
   "theorems": [
    "C08_place_contents",
    "C08_batch_fits",
    "C08_single_fits",
    "C08_align8_refuted",
    "C08_aligned_batch_refuted"
   ],
   "note": "Contents proved for every batch. The space half is proved for single rows with safe alignment and for batches of unaligned columns; it is false of the code for 8-aligned columns of odd width and for aligned batches (witnesses)."
  },
  {
   "property": "C09",
   "status": "partial",
   "theorems": [
    "C09_split_contents",
    "C09_split_fits",
    "C09_split_both_nonempty",
    "C09_large_value_refuted"
   ],
   "note": "Contents and separation proved in full. No overflow proved when no row takes more than about a third of a page; false of the code for larger attached values (witness)."
  },
  {
   "property": "C10",
   "status": "proved",
   "theorems": [
    "C10_descent_choice"
   ],
   "note": "Recorded bounds ascending except possibly the last, which counts as +infinity."
  },
  {
   "property": "C11",
   "status": "proved",
   "theorems": [
    "C11_posting_tree_holds_inserted",
    "C11_byval_rows_storable"
   ],
   "note": "Attached values up to about a third of a page (always true by value); batches of several rows only for unaligned columns (cf. C08_aligned_batch_refuted). Insertions only; vacuum is C15."
  },
  {
   "property": "C12",
   "status": "proved",
   "theorems": [
    "C12_crash_during_insertion",
    "C12_single_row_atomic",
    "C12_crash_histories"
   ],
   "note": "Crash points: between any two logged changes; torn pages and WAL replay are PostgreSQL's."
  },
  {
   "property": "C13",
   "status": "partial",
   "theorems": [
    "C13_insertion_after_crash_partial",
    "C13_half_split_refuted"
   ],
   "note": "The property is false of the code: refuted by a reachable half-split tree whose next split ends with 'Lost path'."
  },
  {
   "property": "C14",
   "status": "proved",
   "theorems": [
    "C14_vacuum_posting_list",
    "C14_vacuum_stored_list"
   ],
   "note": "Byte level, for posting lists of entry tuples and of posting-tree leaves."
  },
  {
   "property": "C15",
   "status": "proved",
   "theorems": [
    "C15_vacuum_keeps_live_rows",
    "C15_vacuum_histories",
    "C15_insertion_after_vacuum",
    "C15_vacuum_pages"
   ],
   "note": "Posting tree of one key; insertions after the build are single rows. Readers running during vacuum are not modelled."
  },
  {
   "property": "C16",
   "status": "proved",
   "theorems": [
    "C16_build_gives_each_key_its_rows",
    "C16_same_as_row_by_row"
   ],
   "note": "The sequence of key insertions made by the build; qsort is any sorting function; the trees these insertions go to are C11, C20, C21."
  },
  {
   "property": "C17",
   "status": "proved",
   "theorems": [
    "C17_every_key_visited_once"
   ],
   "note": "All key counts below 2^31 (the C type of the counter)."
  },
  {
   "property": "C18",
   "status": "proved",
   "theorems": [
    "C18_keys_stored_once",
    "C18_placeholders"
   ],
   "note": "Operator class comparison assumed a total order; qsort any sorting function that reports duplicates."
  },
  {
   "property": "C19",
   "status": "proved",
   "theorems": [
    "C19_keys_totally_ordered",
    "C19_key_order"
   ],
   "note": ""
  },
  {
   "property": "C20",
   "status": "proved",
   "theorems": [
    "C20_index_holds_inserted",
    "C20_too_big_refused"
   ],
   "note": "Any history of insertions (single rows or sorted batches) into a new index, any number of keys, columns and splits. Hypotheses: keys and rows within the size limits, columns without the 8-alignment overrun of C08; batches of more than one row only for attached values that need no padding."
  },
  {
   "property": "C21",
   "status": "proved",
   "theorems": [
    "C21_growing_a_key"
   ],
   "note": "One insertion seen through searches in any reachable index, with the frame condition for all other keys."
  },
  {
   "property": "C22",
   "status": "partial",
   "theorems": [
    "C22_regular_scan_exact",
    "C22_common_order",
    "C22_attach_ordered_scan_partial",
    "C22_order_by_attached_refuted",
    "C22_only_usual_conditions_refuted",
    "C22_lost_recheck_refuted",
    "C22_ordering_after_recheck_refuted"
   ],
   "note": "Regular scan exact (order, set of rows, recheck flags) for any number of conditions and any sources of rows when all conditions have one order. On an index ordered by the attached column with conditions on usual columns too: no row lost and soundness for at most one usual condition; beyond that the code is wrong, witnesses in the _refuted examples."
  },
  {
   "property": "C23",
   "status": "partial",
   "theorems": [
    "C23_fast_scan_exact_partial",
    "C23_fast_equals_regular_partial",
    "C23_two_conditions_refuted",
    "C23_two_columns_refuted",
    "C23_ordering_key_rows_refuted"
   ],
   "note": "Fast scan = regular scan (rows, order, recheck flags) for one search condition with any number of query keys and ordering keys on one column; false of the code for several conditions (row lost by the second shift) and for several columns (nothing returned), both refuted by concrete scans."
  },
  {
   "property": "C24",
   "status": "proved",
   "theorems": [
    "C24_scalar_queries_exact"
   ],
   "note": "For every index CREATE INDEX, INSERTs and VACUUMs leave, any number of comparison conditions. Hypothesis: the start value is not above the values the column ever had (C25: true for all classes but \"char\" and interval). In an order_by_attach index, conditions mixing the ordered column with other columns are excluded (C38/C31), and attached values are not NULL. After a VACUUM the uninitialised memory a scan on an empty first page reads must be harmless (junk_harmless; C41)."
  },
  {
   "property": "C25",
   "status": "partial",
   "theorems": [
    "C25_start_values_minimal_partial",
    "C25_refuted_char",
    "C25_refuted_interval",
    "C25_refuted_char_query"
   ],
   "note": "Proved for all classes except \"char\" and interval, for which it is refuted (for char with the query that loses its rows). Text in the C collation only."
  },
  {
   "property": "C26",
   "status": "partial",
   "theorems": [
    "C26_distances_partial",
    "C26_int_exact",
    "C26_int8",
    "C26_refuted_timestamp",
    "C26_refuted_infinities",
    "C26_refuted_right_equal"
   ],
   "note": "True for int2, int4, oid, int8/money up to 2^53, finite floats, finite timestamps less than 2^63 us apart. Refuted: far timestamps (negative distance), -infinity to infinity (0), |=> of equal values (infinite)."
  },
  {
   "property": "C27",
   "status": "partial",
   "theorems": [
    "C27_order_by_distance_partial",
    "C27_null_beside_query_keys_refuted",
    "C27_two_key_columns_refuted",
    "C27_attached_and_own_key_refuted",
    "C27_order_by_attach_regular_scan_returns_nothing",
    "C27_order_by_attach_prefix_refuted"
   ],
   "note": "Whole query with ORDER BY on an index left by CREATE INDEX, INSERTs and VACUUMs: rows exactly once, sorted lexicographically, distances true. Missing: full-index scans (no condition: C55), natural-order scans (C28), multi-valued columns ordered by key. The refuted theorems show the remaining combinations are wrong in the code; in an order_by_attach index a regular scan ordered by the attached column returns nothing at all. After a VACUUM the uninitialised memory a scan on an empty first page reads must be harmless (junk_harmless; C41)."
  },
  {
   "property": "C28",
   "status": "partial",
   "theorems": [
    "C28_natural_scan_partial",
    "C28_upward_pass_partial",
    "C28_equal_rows_last_refuted",
    "C28_page_boundary_refuted",
    "C28_three_rows_refuted",
    "C28_two_words_tree_refuted"
   ],
   "note": "Proved for query keys with posting lists (any number) and for one query key with a posting tree whose pages have neither 0 nor 3 rows and no boundary at the argument; the upward pass for posting trees under any number of keys. The full claim is false of the code and refuted on concrete cases: <=| returns rows at distance 0 after all nearer-than-infinite rows; an argument between two leaf pages loses every row below it; a three-row page makes the downward scan read list[-1]; with two words and a posting tree the downward scan skips matching rows."
  },
  {
   "property": "C29",
   "status": "proved",
   "theorems": [
    "C29_array_queries"
   ],
   "note": "On a table, its index (CREATE INDEX plus INSERTs and VACUUMs) and any number of conditions &&, @>, <@, = and % on array columns. Arrays of several dimensions and NULL elements are refused by the code and not modelled; rum_anyarray_addon_ops uses PostgreSQL's GIN functions, not modelled. After a VACUUM the uninitialised memory a scan on an empty first page reads must be harmless (junk_harmless; C41)."
  },
  {
   "property": "C30",
   "status": "partial",
   "theorems": [
    "C29_array_queries",
    "C30_similar_function",
    "C30_distance_function_partial",
    "C30_distance_of_all_arrays",
    "C30_order_by_array_distance",
    "C30_zero_threshold_refuted",
    "C30_empty_array_distance_refuted"
   ],
   "note": "% by the index and by the function, the distance by the function and by the index, ORDER BY on the index; float8 arithmetic is IEEE binary64 (SpecFloat). The full statement is false of the code at the threshold 0 and for the distance of empty arrays: shown by the two _refuted theorems, and left out of the positive ones. Indexes include vacuumed ones. After a VACUUM the uninitialised memory a scan on an empty first page reads must be harmless (junk_harmless; C41)."
  },
  {
   "property": "C31",
   "status": "partial",
   "theorems": [
    "C31_tsquery_consistent_partial",
    "C31_exact_operands",
    "C31_tsquery_addon_consistent",
    "C31_empty_query",
    "C31_prefix_weight_refuted",
    "C31_mixed_stripped_refuted",
    "C34_prefix_mix_refuted"
   ],
   "note": "Proved for every query tree and document whose operands with one word agree on the prefix mark and whose prefix operands do not mix stripped and positioned lexemes nor, if weighted, meet two weights at one position. Outside, matching rows are lost: the _refuted theorems are witnesses. Positions plus phrase distances are assumed to stay below 2^14 (PostgreSQL's own limit of positions)."
  },
  {
   "property": "C32",
   "status": "proved",
   "theorems": [
    "C32_phrase_search",
    "C32_meaning_unique",
    "C32_two_words",
    "C32_lookup_reports",
    "C32_output_array"
   ],
   "note": "ends_at (TsqSpec.v) defines the positions at which a phrase ends, for nested AND, OR, NOT and phrase operands."
  },
  {
   "property": "C33",
   "status": "proved",
   "theorems": [
    "C33_prefilter",
    "C33_prefilter_keys"
   ],
   "note": "PostgreSQL's TS_execute, called by the pre-filter, is modelled from PostgreSQL's source."
  },
  {
   "property": "C34",
   "status": "partial",
   "theorems": [
    "C34_operand_mapping_partial",
    "C34_prefix_mix_refuted"
   ],
   "note": "Word and uniqueness of the key: proved. Prefix mode: only if the operands with that word agree; otherwise false (witness: foo:* & !foo loses 'foobar')."
  },
  {
   "property": "C35",
   "status": "proved",
   "theorems": [
    "C35_numbers_read_back",
    "C35_paths_read_back",
    "C35_search_reads_paths"
   ],
   "note": "rumtsquery.c: every number below 2^32, every storable query with fewer than 2^28 words and operators: words once each, paths read back as numbers, start values and negations of all ancestors; the search works on exactly these steps."
  },
  {
   "property": "C36",
   "status": "partial",
   "theorems": [
    "C36_inverted_search_partial",
    "C36_no_negation_qualifies",
    "C36_answer_defined",
    "C36_all_queries_refuted"
   ],
   "note": "Whole index, INSERTs and VACUUMs included: sound for all plain queries up to 256 merged operators (weights not looked at), complete if no inner operation holds of the empty document. The full claim is false: missing rows for 1 & !(2 & 3), weights ignored without recheck, empty document finds nothing, more than 256 operators leave the array (C36_all_queries_refuted). After a VACUUM the uninitialised memory a scan on an empty first page reads must be harmless (junk_harmless; C41)."
  },
  {
   "property": "C37",
   "status": "proved",
   "theorems": [
    "C37_null_or_empty_query",
    "C37_search_modes"
   ],
   "note": "On the whole model of clauses, index and scan (C46), with the same covered queries for the second theorem; bogus search modes are treated as ALL, as in the code. Vacuumed indexes included."
  },
  {
   "property": "C38",
   "status": "partial",
   "theorems": [
    "C38_same_order_partial",
    "C38_null_order_refuted"
   ],
   "note": "The property is false of the code: NULL first on pages, last in the in-memory sort; witness: an order_by_attach index of two rows loses the row with NULL attached value in a partial-match query. The two orders agree on rows with attached values."
  },
  {
   "property": "C39",
   "status": "partial",
   "theorems": [
    "C39_batches_sorted_partial",
    "C39_other_column_unsorted_refuted"
   ],
   "note": "False for the non-attached columns of an order_by_attach index when heap rows arrive out of address order: refuted by a witness; proved for all other cases."
  },
  {
   "property": "C40",
   "status": "partial",
   "theorems": [
    "C40_no_row_lost",
    "C40_exact_pages_partial",
    "C40_unmarked_pages_exact",
    "C40_intersect_refuted"
   ],
   "note": "No row lost: proved for all histories of additions, unions and intersections, memory limits and choices of degraded pages. Exactness: proved without intersections; with an intersection it is false (rum_tbm_contains_tid ignores the page's recheck mark), witness in C40_intersect_refuted."
  },
  {
   "property": "C41",
   "status": "partial",
   "theorems": [
    "C41_vacuumed_tree_found",
    "C41_regular_scan_of_vacuumed_trees_partial",
    "C41_fast_scan_of_vacuumed_trees_partial",
    "C41_stale_memory_loses_row_refuted",
    "C41_zeroed_memory_loses_row_refuted",
    "C41_null_row_given_refuted"
   ],
   "note": "Scans over trees reached by builds, insertions and vacuums give exactly the stored rows, whatever pages are empty, when the uninitialised memory read on an empty first page does no harm. The full claim is false: stale memory can hide a row, zeroed memory can hide another key's first row. Missing: backward direction."
  },
  {
   "property": "C42",
   "status": "partial",
   "theorems": [
    "C42_hashed_lexemes_partial",
    "C42_collision_refuted"
   ],
   "note": "Proved when no lexeme of the document collides with another word of the query; on any collision the property is false: rows are returned without recheck or lost."
  },
  {
   "property": "C43",
   "status": "partial",
   "theorems": [
    "C43_operator_distance",
    "C43_index_distance",
    "C43_finite_partial",
    "C43_finite_index_partial",
    "C43_score_formula_partial",
    "C43_score_methods",
    "C43_index_is_operator_partial",
    "C43_phrase_in_index_refuted",
    "C43_stripped_refuted",
    "C43_negated_refuted",
    "C43_repeated_refuted"
   ],
   "note": "Signs, reciprocal and infinity: all documents, queries (phrases included) and methods. Which documents have a finite distance: queries without phrases whose negated words do not occur, words with positions. Closed form: queries without phrases and NOT, methods without EXTDIST/RDIVRPLUS1. Index = operator: queries without phrases, prefixes, repeated words; documents without two query words at one place; cover keys that do not collide. The _refuted theorems show why phrases in the index, stripped words, negated words and repeated words are excluded. Floating-point rounding is not modelled (rationals). Values of the regression tests are reproduced (C43_published_values). C43_score_methods gives the score under RANK_NORM_EXTDIST and RANK_NORM_RDIVRPLUS1 from the one of method 0."
  },
  {
   "property": "C44",
   "status": "proved",
   "theorems": [
    "C44_crash_during_insertion",
    "C44_crash_histories"
   ],
   "note": "Crash after any logged record of an insertion; any number of crashes and failed insertions. Progress after crashes excludes the lost-path error, which is C13."
  },
  {
   "property": "C45",
   "status": "proved",
   "theorems": [
    "C45_index_agrees_with_table"
   ],
   "note": "CREATE INDEX with any flush points, then any INSERTs. Exceptions kept as hypotheses: C08 aligned batches, C39 row order of the build in attach-ordered indexes."
  },
  {
   "property": "C46",
   "status": "partial",
   "theorems": [
    "C46_query_returns_the_rows_partial"
   ],
   "note": "Full for every index left by CREATE INDEX, INSERTs and VACUUMs, for queries meeting QuerySpec.covered: attached values non-NULL when several keys are merged in their order (C38 is false otherwise), a fast scan has one condition (C23), in an attach-ordered index conditions are all on or all off the carrying column (C22's bitmap case not composed), no natural-order or full-index ordered scan, index unchanged during the scan, at most one row per key handed over at a time unless values need no alignment (C45). After a VACUUM the uninitialised memory a scan on an empty first page reads must be harmless (junk_harmless; C41)."
  },
  {
   "property": "C47",
   "status": "partial",
   "theorems": [
    "C47_vacuum_after_crashed_vacuum_partial",
    "C47_crash_leaves_childless_page_refuted",
    "C47_dead_rows_stay_after_crash_refuted",
    "C47_live_row_hidden_after_crash_refuted"
   ],
   "note": "False in general: a crash in rumScanToDelete can leave a childless internal page (lookups read past it); after a crash between split and parent update vacuum never visits the right half (dead rows stay) and may unlink the left half (live rows of the right half not found by descent)."
  },
  {
   "property": "C48",
   "status": "proved",
   "theorems": [
    "C48_index_exact_through_vacuums",
    "C48_crash_during_vacuum"
   ],
   "note": "whole index: entry tree, posting lists and trees, CREATE INDEX and any sequence of INSERTs and VACUUMs; crash points inside VACUUM; batches at CREATE INDEX under the C08 alignment restriction as in C45"
  },
  {
   "property": "C49",
   "status": "partial",
   "theorems": [
    "C49_text_search_partial",
    "C49_addon_search_partial",
    "C49_several_conditions_refuted"
   ],
   "note": "whole index, any history of INSERTs and VACUUMs. Restrictions: query_fits (C31: one prefix mode per word, phrase distances within 14 bits, prefix operands: all hits stripped or none, no two hits with different weights at one position), scan_fits (several conditions only if some class has no pre-filter or some operand is a prefix; a single condition such as !!a without prefix operand excluded), hashed words without collisions. Several conditions on one or two columns with the fast scan lose rows (refuted)."
  },
  {
   "property": "C50",
   "status": "partial",
   "theorems": [
    "C50_order_by_relevance_partial",
    "C50_order_of_operator_partial",
    "C50_phrase_order_refuted"
   ],
   "note": "whole index, any history of INSERTs and VACUUMs, any list of conditions and orderings within ordered_fits (a class without pre-filter or a prefix operand somewhere; or one condition that requires a match with orderings on the same column). Agreement with the operator where C43 has it (no phrases, prefixes or repeated words; documents with positions; cover numbers that do not collide); float8 distances are rational numbers. Phrases: all distances from the index are infinite (refuted)."
  },
  {
   "property": "C51",
   "status": "partial",
   "theorems": [
    "C51_scan_during_insertions_partial",
    "C51_lookup_during_insertions_partial",
    "C51_scan_during_overlapping_insertions_partial",
    "C51_lookup_during_overlapping_insertions",
    "C51_overlap_hypotheses_met",
    "C51_root_split_never_ends",
    "C51_root_split_refuted",
    "C51_rows_repeat_refuted",
    "C51_hypotheses_met"
   ],
   "note": "One reader against insertions into the same posting tree at every schedule of page reads: serial insertions any of which may be cut short, and insertions of any number of sessions that overlap (C53's model; the reader ignores locks, so it is allowed more schedules than the code). Missing: VACUUM during the scan, backward scans, several keys. The claim is false when the tree's only page is split after it was copied (C51_root_split_refuted: the regular scan loops for ever) and, for the fast scan, when a page is split between two reads (C51_rows_repeat_refuted)."
  },
  {
   "property": "C52",
   "status": "partial",
   "theorems": [
    "C52_query_during_insertions_partial",
    "C52_hypotheses_met"
   ],
   "note": "Missing: the posting tree of the key growing from one page to several between two page reads of the query (there the claim is false, C51_root_split_refuted; other keys' trees may do so); writers run one at a time (each logged change is visible at once, any insertion may stop half-way; overlapping writers are C51/C53 for one posting tree); one plain key, forward direction; no vacuum meanwhile or before."
  },
  {
   "property": "C53",
   "status": "proved",
   "theorems": [
    "C53_overlapping_insertions",
    "C53_rows_stay",
    "C53_no_deadlock",
    "C53_all_finish",
    "C53_tree_left_behind",
    "C53_hypotheses_met",
    "C53_fair_met"
   ],
   "note": "Any number of sessions, one row each (what a heap insert does), on one posting tree, every interleaving of their page-lock steps. Simplifications: a split changes the page, its new neighbour and the left link of the next page at one moment; a split waits for the next page before it locks rather than while it holds the page; shared and exclusive locks are one kind; no vacuum, no page reuse."
  },
  {
   "property": "C54",
   "status": "proved",
   "theorems": [
    "C54_every_row_once",
    "C54_sorted",
    "C54_rows_in_order_of_distance",
    "C54_sort_of_the_scans",
    "C54_nan_distance_refuted",
    "C54_array_distance_no_nan",
    "C54_rows_in_order_of_array_distance",
    "C54_array_ordering_no_nan",
    "C54_array_ordering_without_size_refuted",
    "C54_array_ordering_of_row_no_nan"
   ],
   "note": "Permutation for any comparison, order for any comparison that is an order on the rows, order of float8 distance vectors without NaN; sorter and sorts_items, assumed by the query theorems, are proved of this sort. C54_nan_distance_refuted shows why NaN is excluded: rows around a NaN distance are left out of order. Sort in memory only (qsort_tuple.c, used with PostgreSQL 9.6 to 13; later versions use a sort template that is not in this repository); the sort on tape is C56. NaN-freedom is proved of the array distances (operator and index function, all three similarities, arrays below 2^31 elements); an element without attached value gives a NaN (refuted)."
  },
  {
   "property": "C55",
   "status": "partial",
   "theorems": [
    "C55_full_scan_partial",
    "C55_first_key_vacuumed_refuted",
    "C55_later_key_vacuumed_refuted",
    "C55_attached_elsewhere_refuted",
    "C55_empty_first_leaf_refuted"
   ],
   "note": "C55_full_scan_partial: every row exactly once, ordered, true distances, for all histories of INSERTs and VACUUMs (these must leave a row to every key of column 1, and rows in the first leaf of its posting trees) and orderings by the value attached to column 1 or by a key of column 1 (rows then have at most one key there). Refuted without that: after a VACUUM has emptied the first key's posting list the query returns nothing; a later key's: the scan reads through a null pointer; the first leaf of a posting tree: it returns the address that uninitialised memory contains; and a value attached to another column than the first: all distances infinite. Missing: orderings by query keys in the full scan, one-sided distances on order_by_attach indexes."
  },
  {
   "property": "C56",
   "status": "proved",
   "theorems": [
    "C56_every_row_once",
    "C56_sorted",
    "C56_rows_in_order_of_distance",
    "C56_sort_of_the_scans"
   ],
   "note": "The heap, the merge loop, the passes of the balanced merge of tuplesort15.c and the tape format of rumsort.c; any distribution to memory loads. With C54 for the sort of one load, what C17 to C55 assume of their sorts holds of this one too. Not modelled: the polyphase merge of tuplesort13.c and older, the temporary files below the tapes, parallel sorts."
  },
  {
   "property": "C57",
   "status": "partial",
   "theorems": [
    "C57_accepted_classes",
    "C57_accepted_class_opens",
    "C57_order_by_of_accepted_class",
    "C57_ordering_function_not_required_refuted"
   ],
   "note": "Acceptance, opening and the kind of ORDER BY for all catalog rows and coercions; a class with ORDER BY operators and no ordering function is accepted (rum_timestamptz_ops before version 1.2), so the last clause is refuted. Not modelled: the messages, the catalog caches; that a function of the right signature does what its number asks (the class theorems C26 to C33 do for the built-in ones)."
  },
  {
   "property": "C58",
   "status": "partial",
   "theorems": [
    "C58_options_accepted",
    "C58_other_columns_renamed",
    "C58_renamed_column_refuted"
   ],
   "note": "Exact characterisation of initRumState's checks for all tables, indexes and options; renaming of columns not named keeps an index usable; renaming one that is named makes it unusable (refuted). Not modelled: parsing of the options (rumoptions), system columns, collations."
  }
 ]
}