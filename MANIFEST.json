{
 "claims": [
  {
   "property": "C01",
   "status": "proved",
   "theorems": [
    "C01_ewah_append",
    "C01_ewah_at",
    "C01_ewah_exact",
    "C01_ewah_range_progress"
   ],
   "note": "EWAH bitmap modelled block by block (markers, dirty/clean counters, overflow of both counters); theorem over arbitrary operation histories; also random access and appending a whole bitmap. Sizes are unbounded in the model (the code requires size <= max_size) and flip assumes fewer than 2^32 blocks."
  },
  {
   "property": "C02",
   "status": "proved",
   "theorems": [
    "C02_expression_exact",
    "C02_nary_and",
    "C02_nary_or",
    "C02_nary_xor",
    "C02_nor_refuted"
   ],
   "note": "Every expression over mutators, &, |, ^, - and concatenation; n-ary or/and/xor for every tie-breaking of the priority queue, with existence of a result. A refuted theorem records that operator/ (or-not) copies the surplus of a longer right operand instead of negating it."
  },
  {
   "property": "C03",
   "status": "proved",
   "theorems": [
    "C03_all",
    "C03_any",
    "C03_frame",
    "C03_is_subset",
    "C03_is_subset_empty_refuted",
    "C03_iterate",
    "C03_range_moves",
    "C03_rank",
    "C03_rank_at",
    "C03_select",
    "C03_select_k_zero_refuted",
    "C03_select_last",
    "C03_select_last_zero_refuted",
    "C03_select_with"
   ],
   "note": "rank, select, iteration, all moves of bitwise_range, frame, any, all, is_subset, select_with over every reachable EWAH bitmap. Refuted theorems record three defects outside the claim for 1-bits: select<0>(npos), select<0>(k) past the end, is_subset(empty, empty)."
  },
  {
   "property": "C04",
   "status": "partial",
   "theorems": [
    "C04_assign",
    "C04_assign_refuted",
    "C04_bitvector",
    "C04_equal",
    "C04_equal_refuted",
    "C04_range",
    "C04_range_exact",
    "C04_range_refuted",
    "C04_sized"
   ],
   "note": "Content, size, reading and counting hold for every operation sequence (C04_bitvector). The other two parts of the statement are false of the code and are given exactly, with witnesses: equality ignores the last 64 bits when the size is a multiple of 64; the range of the uncompressed bitmap reads the bits after the last whole block as a continuation of a uniform block before them whenever the very last bit agrees with it (C04_range_exact says when and what is read instead). assign() on a non-empty bitvector keeps the old size."
  },
  {
   "property": "C05",
   "status": "proved",
   "theorems": [
    "C05_make_ids"
   ],
   "note": "make_ids for every list of non-empty half-open ranges, minimal size and default bit."
  },
  {
   "property": "C06",
   "status": "partial",
   "theorems": [
    "C06_bitslice",
    "C06_bitslice_length_refuted",
    "C06_bitslice_truncation_refuted",
    "C06_equality",
    "C06_range",
    "C06_range_operand_refuted",
    "C06_singleton"
   ],
   "note": "Singleton and equality coders exact for all histories (encode with counts, skip, append, lazy extension) and operators; range coder exact for operands below the number of bitmaps; bitslice coder exact on encoded rows for values and operands below 2^k. Refuted: range coder with the operand equal to the number of bitmaps reads out of bounds; bitslice results can be shorter than the coder after skips; bitslice truncates larger values. Bitmap type abstract with laws, instantiated with the EWAH model (ewah_laws)."
  },
  {
   "property": "C07",
   "status": "proved",
   "theorems": [
    "C07_decompose",
    "C07_multi_bitslice",
    "C07_multi_equality",
    "C07_multi_range",
    "C07_truncation_refuted"
   ],
   "note": "All well-defined bases, histories and operators below the product of the base; range, equality and bitslice components. C07_truncation_refuted shows the bound is needed."
  },
  {
   "property": "C08",
   "status": "partial",
   "theorems": [
    "C08_decimal_bin",
    "C08_decimal_bin_refuted",
    "C08_double",
    "C08_precision_bin",
    "C08_signed",
    "C08_subnormal_refuted"
   ],
   "note": "Signed keys strictly monotone and injective; double keys monotone, strictly except between subnormals of one sign (refuted there); precision binning monotone for all non-NaN doubles; decimal binning rounds down for non-negative values and is refuted for negative ones (unsigned division)."
  },
  {
   "property": "C09",
   "status": "partial",
   "theorems": [
    "C09_binned_not_equal_refuted",
    "C09_binned_not_in_refuted",
    "C09_bool",
    "C09_count",
    "C09_enumeration",
    "C09_integer",
    "C09_negative_time_refuted",
    "C09_real",
    "C09_real_not_equal_refuted",
    "C09_small_base_refuted",
    "C09_temporal"
   ],
   "note": "Exact for bool, count and integer columns with nils and gaps, all six comparisons and in/not_in on value rows; no false negatives for reals and non-negative times/durations for ==,<,<=,>,>=,in. Refuted: negative times, != and not_in on binned types, custom bases with too small a product. Operands of another type than the column are not modelled. Enumeration columns are exact for == and !=."
  },
  {
   "property": "C10",
   "status": "partial",
   "theorems": [
    "C10_nil",
    "C10_nil_in_list_refuted",
    "C10_not_nil",
    "C10_not_nil_gap_refuted"
   ],
   "note": "== nil exact for every concrete index; != nil exact without skipped rows and refuted for skipped rows; nil rows are lost by `in [nil]` and by not_in (refuted)."
  },
  {
   "property": "C11",
   "status": "partial",
   "theorems": [
    "C11_address",
    "C11_address_zero_length_refuted",
    "C11_subnet",
    "C11_subnet_in_refuted",
    "C11_subnet_ni_address_refuted",
    "C11_subnet_ni_zero_refuted",
    "C11_subnet_not_ni_zero_refuted"
   ],
   "note": "Exact for address columns (==, !=, in/not_in subnets of non-zero length, in/not_in lists) and for subnet columns (==, != always; in/not_in unless the operand is IPv6 and rows IPv4; ni/not_ni address unless the operand is IPv4 and rows IPv6; ni/not_ni subnet within one family and non-zero lengths). The excluded cases are refuted with witnesses."
  },
  {
   "property": "C12",
   "status": "partial",
   "theorems": [
    "C12_contains_sound",
    "C12_equal_sound",
    "C12_exact",
    "C12_ff_refuted",
    "C12_limit_ten_refuted",
    "C12_truncated",
    "C12_truncated_contains_refuted",
    "C12_truncated_not_equal_refuted"
   ],
   "note": "Exact (==, !=, ni, not_ni) for every column and operand shorter than the configured limit without the byte 0xFF in the operand; for longer strings the lookup is characterised exactly as the query on the truncated strings, and == and ni have no false negatives. Refuted: != and not_ni over truncated strings, a pattern with byte 0xFF, limits that are powers of ten."
  },
  {
   "property": "C13",
   "status": "partial",
   "theorems": [
    "C13_collision_refuted",
    "C13_exact",
    "C13_refused_refuted",
    "C13_reload",
    "C13_sound"
   ],
   "note": "Abstract 40-bit digest function. Sound (no false negatives of == and in) for every history of accepted appends; exact when digests of the operand are unambiguous; also after reloading. Refuted: exactness with a digest collision against an absent operand, and a refused append that the indexer ignores."
  },
  {
   "property": "C14",
   "status": "partial",
   "theorems": [
    "C14_contains",
    "C14_enumerations",
    "C14_not_contains_refuted",
    "C14_strings",
    "C14_truncated_refuted"
   ],
   "note": "ni over every element index whose equality lookups are exact (instantiated with enumerations and strings), lists up to the length limit. Refuted: not_ni over nil rows, lists longer than the limit."
  },
  {
   "property": "C15",
   "status": "proved",
   "theorems": [
    "C15_add_reports",
    "C15_default_refuted",
    "C15_exact",
    "C15_never_forgets",
    "C15_partition_refuted"
   ],
   "note": "All hash functions, all parameter sets that make_bloom_filter accepts, both layouts and both hashing schemes, all histories of additions: an added value is always found, lookups are exactly `all its cells are set`, and add reports whether a cell changed. Refuted: partitioned filters with more hash functions than cells, and default-constructed filters."
  },
  {
   "property": "C16",
   "status": "partial",
   "theorems": [
    "C16_alias_refuted",
    "C16_bool_exact",
    "C16_buffered_exact",
    "C16_buffered_refuted",
    "C16_defined",
    "C16_nil_refuted",
    "C16_no_false_negatives",
    "C16_shrink_size",
    "C16_time_exact",
    "C16_time_not_equal_refuted"
   ],
   "note": "All synopsis kinds (bool, time, Bloom, buffered before and after shrinking), all columns and values, all operators except != and not in on times, and values other than nil: a synopsis never excludes a column with a matching value. Lookups on time, bool and buffered synopses are characterised exactly. Refuted: != on times, nil operands, buffered synopses with operands of another type, aliases of bool columns."
  },
  {
   "property": "C17",
   "status": "partial",
   "theorems": [
    "C17_absent_field",
    "C17_alias_refuted",
    "C17_defined",
    "C17_known",
    "C17_meta_field_refuted",
    "C17_nan_refuted",
    "C17_nil_refuted",
    "C17_no_candidate_lost",
    "C17_no_event_lost",
    "C17_same_string_operator_refuted",
    "C17_same_string_refuted",
    "C17_time_refuted",
    "C17_wildcard_refuted"
   ],
   "note": "Partition synopses from any slices and settings, shrunk or not, any history of merges and erasures, all validated queries of any depth in which no string occurs in two operands of a disjunction, field names without wildcards, no nil matched, no != / not in on times, no negated #field. Pruning terminates and lookups are defined without NaN and buffered synopses; results are sorted, known and not erased. The excluded cases are refuted with witnesses (lost partitions, endless pruning, failing assertions)."
  },
  {
   "property": "C18",
   "status": "proved",
   "theorems": [
    "C18_complement",
    "C18_flip",
    "C18_flip_match_refuted",
    "C18_nan_refuted",
    "C18_negate_involutive",
    "C18_order",
    "C18_scalars",
    "C18_view",
    "C18_view_equal_pattern_refuted",
    "C18_view_match_data_refuted",
    "C18_view_match_refuted",
    "C18_view_order_refuted"
   ],
   "note": "All values of the recursive data type and all operators, for evaluate on data and on views, plus involution of negate, flip, and the order laws on values without NaN. Regular expressions are two abstract functions. Refuted: flip of match, order laws with NaN, view match, view == between string and pattern, view ordering of containers."
  },
  {
   "property": "C19",
   "status": "proved",
   "theorems": [
    "C19_align",
    "C19_dedup_refuted",
    "C19_denegate",
    "C19_hoist",
    "C19_idempotent_refuted",
    "C19_match_refuted",
    "C19_missing_refuted",
    "C19_normalize",
    "C19_normalize_event",
    "C19_several_fields_refuted",
    "C19_shape"
   ],
   "note": "All complete expressions of any depth and arity, over every valuation of predicates that respects negation and flipping of operators, and over every event that gives each extractor one value (match operators with data on the right). Refuted: missing expressions under negation, match with the pattern on the left, idempotence, deduplication alone, and extractors standing for several fields with ordering operators."
  },
  {
   "property": "C20",
   "status": "partial",
   "theorems": [
    "C20_count",
    "C20_count_invalid_refuted",
    "C20_data_left_refuted",
    "C20_empty_hints_refuted",
    "C20_enum",
    "C20_enum_alias_refuted",
    "C20_evaluate",
    "C20_filter",
    "C20_no_expression_refuted",
    "C20_record_field_refuted",
    "C20_tailored"
   ],
   "note": "All slices with an offset and rows, all ID hints, all evaluable expressions: filter keeps exactly the hinted rows that satisfy the expression, count agrees, and evaluating a slice sets exactly those bits. Expressions tailored to the layout are evaluable unless a field extractor is compared with nil or a container. Refuted: record fields, aliases of enumerations, data on the left of an ordering, hints without bits, the empty expression, counting slices without an offset."
  },
  {
   "property": "C21",
   "status": "partial",
   "theorems": [
    "C21_conjunctive",
    "C21_disjunction_refuted",
    "C21_meta_free",
    "C21_removes_meta"
   ],
   "note": "All expressions whose meta predicates are below conjunctions only: the part of the query that is removed for a partition keeps the answer. Refuted for meta predicates below disjunctions."
  },
  {
   "property": "C22",
   "status": "proved",
   "theorems": [
    "C22_ewah",
    "C22_negation_refuted",
    "C22_positions"
   ],
   "note": "All normalised expressions, all bitmap implementations with the bitmap laws (EWAH as instance), all orders in which the indexers answer: one delivery, not before the last answer, the answer is the expression over the reported hits and does not depend on the order. Refuted for expressions with negations."
  },
  {
   "property": "C23",
   "status": "proved",
   "theorems": [
    "C23_failed_start_overwrites_refuted",
    "C23_ids_unique_across_crashes",
    "C23_ignored_write_error_refuted",
    "C23_range_length",
    "C23_start_succeeds",
    "C23_torn_write_refuted"
   ],
   "note": "Proved for all histories with atomic state-file writes. Refuted theorems record torn writes, ignored write errors and the overwritten file after a failed start."
  },
  {
   "property": "C24",
   "status": "partial",
   "theorems": [
    "C24_erase_point_exact",
    "C24_erase_range_partial",
    "C24_erase_range_prefix_refuted",
    "C24_erase_range_suffix_refuted",
    "C24_erase_value_exact",
    "C24_find_exact",
    "C24_inject_exact",
    "C24_insert_exact"
   ],
   "note": "insert, inject, lookup, find, erase(p) and erase_value are exact after every history. erase(l, r) is exact except for two cases, which are refuted with witnesses: erasing a proper prefix of an interval, and erasing a proper suffix."
  },
  {
   "property": "C25",
   "status": "proved",
   "theorems": [
    "C25_flat_zero_refuted",
    "C25_moved_key_refuted",
    "C25_zero_capacity_refuted"
   ],
   "note": "lru_cache, flat_lru_cache and cache (both policies), all operation sequences; refuted for capacity 0 and for key types that change when moved from."
  },
  {
   "property": "C26",
   "status": "partial",
   "theorems": [
    "C26_extract_erase_refuted",
    "C26_failed_erase_refuted",
    "C26_failed_write_refuted",
    "C26_interleaved_refuted",
    "C26_unordered_refuted"
   ],
   "note": "All histories of put, flush, get, erase, cache clearing, chunk releases and clean restarts (directory listed in any order), all segment and cache sizes, all arrangements of cached candidates: get returns exactly the stored rows, put accepts and rejects as specified, extract sessions deliver everything stored at their start once while others put and flush. Needs: puts come after all stored IDs or collide, and writes succeed. Refuted: out-of-order puts (rows not found, or returned twice), failed writes, erase during a session."
  },
  {
   "property": "C27",
   "status": "partial",
   "theorems": [
    "C27_crash_refuted"
   ],
   "note": "At every crash point all kept rows outside of the active segment are in complete segment files, and reopening succeeds if no deletion was pending. Refuted: after a crash between writing the shrunk segment and removing the old one, or during the write, the store cannot be opened."
  },
  {
   "property": "C28",
   "status": "proved",
   "theorems": [
    "C28_index_serves",
    "C28_loaded_first",
    "C28_request",
    "C28_sequence",
    "C28_system"
   ],
   "note": "All candidate sets, batch sizes, orders of loaded partitions and load failures, for sequences of requests of any client and for the whole system with any number of clients, queries and interleavings. A candidate that cannot be loaded is skipped once instead of scheduled."
  },
  {
   "property": "C29",
   "status": "proved",
   "theorems": [
    "C29_candidates",
    "C29_exactly_once",
    "C29_in_flight_refuted",
    "C29_keeps",
    "C29_loads",
    "C29_no_assertion",
    "C29_present"
   ],
   "note": "All interleavings of imports, stream deliveries, rollovers, persist completions, meta index merges and lookups, queries, erasures, shutdowns and restarts: each slice belongs to exactly one partition, the candidates of a query include every partition that was to hold a matching slice when it started and was not erased, and such partitions can be loaded. Refuted: a slice still on its way to the active partition is not seen by a query that starts after its import. Failing writes are left out; the synopsis is assumed sound (C18-C20)."
  },
  {
   "property": "C30",
   "status": "proved",
   "theorems": [
    "C30_complete",
    "C30_counts",
    "C30_done_once",
    "C30_no_assertion",
    "C30_no_deadlock",
    "C30_no_supervisors_refuted",
    "C30_pool",
    "C30_taste_zero_refuted",
    "C30_terminates"
   ],
   "note": "All interleavings of any number of query processors and exporters (asked for all events), any number of supervisors: no assertion fails, counts are right, one done per request, pool conserved, no deadlock with at least one supervisor, no endless run. Refuted: a taste of zero partitions, and no supervisors. Failures of the meta index and anonymous senders are left out."
  },
  {
   "property": "C31",
   "status": "partial",
   "theorems": [
    "C31_all",
    "C31_at_most",
    "C31_cached_lost_refuted",
    "C31_early_exit_refuted",
    "C31_exact",
    "C31_extract_max_refuted",
    "C31_extract_wrap_refuted",
    "C31_prompt",
    "C31_rounds",
    "C31_served",
    "C31_total",
    "C31_unified_assertion_refuted",
    "C31_within_candidates"
   ],
   "note": "All sequences of lookups, slices, requests and ends: the shipped events are exactly the selected events in order, never more than requested, everything once the end is reached with all requested. Refuted: a request for 2^64-1 events, requests whose sum wraps, cached events lost when the query ends, a unified query that gets an index answer. Transformations of slices are left out."
  },
  {
   "property": "C32",
   "status": "proved",
   "theorems": [
    "C32_active",
    "C32_active_after_refuted",
    "C32_early_refuted",
    "C32_handover",
    "C32_only_asked",
    "C32_part_refuted",
    "C32_part_then_whole_refuted",
    "C32_whole",
    "C32_whole_elsewhere_refuted"
   ],
   "note": "Passive stores for all histories (only what was asked is ever lost, lookups exact, whole erasure removes the file for good); active stores exact up to and including the file written, and the handover to a passive store. Refuted, for all inputs: erasing some of the events of a persisted partition (no effect, no answer), erasing the whole partition after that (answered, no effect), erasing when the working directory is not the database directory, requests before loading (no answer), lookups and erasures after the stream has ended."
  },
  {
   "property": "C33",
   "status": "proved",
   "theorems": [
    "C33_asked_twice_refuted",
    "C33_batch_overshoot_refuted",
    "C33_below_high_nothing_happens",
    "C33_bounded",
    "C33_not_stuck",
    "C33_oldest_first",
    "C33_overlap_overshoot_refuted",
    "C33_purge_proceeds",
    "C33_reaches_low_mark",
    "C33_stops_at_low_mark"
   ],
   "note": "Every run of the monitor against any directory, any step size and any interleaving of scans, responses and changes: each pass asks for the oldest partitions and at most a step's worth, nothing is asked for unless a scan found the directory above the high mark, and the monitor is never stuck. For step size one without scans in between: no deletion at or below the low mark, and the low mark is reached. Refuted for the code as it is: a batch can overshoot the low mark, so can overlapping scans, and the same partition can be asked for twice."
  },
  {
   "property": "C34",
   "status": "proved",
   "theorems": [
    "C34_varbyte_roundtrip",
    "C34_varbyte_size"
   ],
   "note": "All four unsigned widths, with arbitrary trailing bytes."
  },
  {
   "property": "C35",
   "status": "proved",
   "theorems": [
    "C35_decode_safe_refuted",
    "C35_decode_total",
    "C35_injective",
    "C35_length",
    "C35_no_leak",
    "C35_round_trip",
    "C35_standard",
    "C35_unpadded_overflows"
   ],
   "note": "C35_standard states the encoding against RFC 4648 as bit sequences; C35_round_trip and C35_length cover every byte string. C35_decode_total covers every text of a length divisible by four; for all other lengths of two or three above a multiple of four the decoder writes behind its buffer (C35_unpadded_overflows, C35_decode_safe_refuted)."
  },
  {
   "property": "C36",
   "status": "proved",
   "theorems": [
    "C36_byte_all_form",
    "C36_byte_all_round_trip",
    "C36_byte_form",
    "C36_byte_injective_refuted",
    "C36_byte_round_trip",
    "C36_byte_round_trip_refuted",
    "C36_byte_safe",
    "C36_double_injective",
    "C36_double_round_trip_refuted",
    "C36_double_round_trip_special",
    "C36_double_safe",
    "C36_extra_round_trip_refuted",
    "C36_json_form",
    "C36_json_round_trip",
    "C36_json_safe_refuted",
    "C36_percent_form",
    "C36_percent_round_trip",
    "C36_percent_safe"
   ],
   "note": "Round trips and RFC forms for all byte strings; safety for all inputs of the byte, percent and double unescapers. Refuted where the code does not deliver it: print escaping of backslashes, extra characters near the end, undoing the doubling, and a read behind the end in the JSON unescaper (C36_*_refuted)."
  },
  {
   "property": "C37",
   "status": "proved",
   "theorems": [
    "C37_binary",
    "C37_map_refuted",
    "C37_mixed_list_refuted",
    "C37_nested_record_refuted",
    "C37_none_column_refuted",
    "C37_prefix_free",
    "C37_round_trip",
    "C37_sequence",
    "C37_short_binary_refuted",
    "C37_short_string_refuted",
    "C37_signed",
    "C37_slice",
    "C37_string",
    "C37_time",
    "C37_time_2038_refuted",
    "C37_time_before_1970_refuted",
    "C37_too_long",
    "C37_unsigned"
   ],
   "note": "C37_round_trip, C37_sequence and C37_slice for all types, values and numbers of rows within the stated limits; C37_map_refuted shows that the limit on maps is exact. Refuted for the code as it is: skipping short byte sequences and str8 strings, times between 2038 and 2106 and before 1970, lists of records, lists with elements of other types, columns of type none."
  },
  {
   "property": "C38",
   "status": "proved",
   "theorems": [
    "C38_constructor",
    "C38_contains",
    "C38_includes",
    "C38_mask",
    "C38_mask_mask",
    "C38_order",
    "C38_zero_length_refuted"
   ],
   "note": "All addresses and lengths: contains = prefix agreement, mask laws, subnet containment = inclusion of address sets and a partial order. C38_zero_length_refuted: contains fails its assertion for a prefix of zero bits (::/0)."
  },
  {
   "property": "C39",
   "status": "proved",
   "theorems": [
    "C39_intersect",
    "C39_unify",
    "C39_unify_sorted",
    "C39_unique_answer",
    "C39_unsorted_refuted"
   ],
   "note": "All ascending inputs for intersection and all sorted inputs for union. Refuted for unsorted inputs."
  },
  {
   "property": "C40",
   "status": "proved",
   "theorems": [
    "C40_agree_refuted",
    "C40_complete",
    "C40_contains_complete",
    "C40_contains_refuted",
    "C40_contains_sound",
    "C40_cycle_refuted",
    "C40_definitions",
    "C40_fields",
    "C40_model_cycle_refuted",
    "C40_model_empty_refuted",
    "C40_model_field_refuted",
    "C40_negated_error_refuted",
    "C40_negation_refuted",
    "C40_nested_refuted",
    "C40_pruned",
    "C40_query",
    "C40_references",
    "C40_references_refuted",
    "C40_resolve_concepts",
    "C40_resolve_concepts_refuted",
    "C40_resolve_concepts_sound"
   ],
   "note": "Definitions, resolve_concepts, concepts and models in queries and pruning, for all inputs within the stated hypotheses. Refuted, with witnesses: resolve_concepts with 100 concepts; references two levels deep in queries; cyclic references (the loop uses invalid iterators); agreement of the two ways to resolve; pruning when one layout name is a prefix of another; negated operators on concepts; cyclic and empty models; models with plain fields; a negation around an invalid model query; references named like a field."
  },
  {
   "property": "C41",
   "status": "proved",
   "theorems": [
    "C41_select",
    "C41_select_invalid_refuted",
    "C41_split",
    "C41_split_events",
    "C41_truncate"
   ],
   "note": "All slices with an offset. Refuted for slices without an offset."
  },
  {
   "property": "C42",
   "status": "proved",
   "theorems": [
    "C42_negation_refuted",
    "C42_rows"
   ],
   "note": "All positive expressions, and all expressions with negations if the hits have equal lengths. Refuted otherwise."
  },
  {
   "property": "C43",
   "status": "partial",
   "theorems": [
    "C43_alias_refuted",
    "C43_assign_refuted",
    "C43_at",
    "C43_each",
    "C43_empty_refuted",
    "C43_flat_field_refuted",
    "C43_flat_index",
    "C43_flatten",
    "C43_num_leaves",
    "C43_remove",
    "C43_remove_path_refuted",
    "C43_resolve_prefix_refuted",
    "C43_resolve_separator_refuted",
    "C43_round_trip"
   ],
   "note": "All record types. each and offset_from_index need nested records to be non-empty (refuted otherwise); resolve of a key needs names that no earlier sibling is a prefix of (refuted otherwise); num_leaves needs no alias of a record (refuted otherwise). Refuted: flat_field_at (trailing dot), assign (no effect), remove_field by path."
  },
  {
   "property": "C44",
   "status": "proved",
   "theorems": [
    "C44_alias",
    "C44_congruent",
    "C44_equality",
    "C44_equivalence"
   ],
   "note": "All types."
  },
  {
   "property": "C45",
   "status": "proved",
   "theorems": [
    "C45_negation_refuted",
    "C45_only_named",
    "C45_predicate",
    "C45_query",
    "C45_timestamp_refuted",
    "C45_unresolved_refuted"
   ],
   "note": "All layouts whose nested records are not empty, all rows, all validated queries without negations (normalising removes them), with field extractors compared with data other than nil and containers. Refuted: the type timestamp with negated operators, negations of predicates that name no column, filtering with a query that names no column."
  },
  {
   "property": "C46",
   "status": "proved",
   "theorems": [
    "C46_attributes",
    "C46_merge",
    "C46_merge_subset",
    "C46_order",
    "C46_priority",
    "C46_remove",
    "C46_subset",
    "C46_subset_alias_refuted"
   ],
   "note": "Record types with distinct field names in every record; the subset test for right sides whose records are not hidden behind aliases (refuted with an alias, where names are ignored)."
  },
  {
   "property": "C47",
   "status": "proved",
   "theorems": [
    "C47_complete",
    "C47_exact",
    "C47_list_refuted",
    "C47_singles"
   ],
   "note": "All types and values, exact description; refuted: a list whose second element has another type passes."
  },
  {
   "property": "C48",
   "status": "proved",
   "theorems": [
    "C48_accepted",
    "C48_validate"
   ],
   "note": "All expressions; the acceptance of regular expressions is a parameter."
  },
  {
   "property": "C49",
   "status": "proved",
   "theorems": [
    "C49_crash",
    "C49_registered_lost_refuted",
    "C49_restores",
    "C49_shutdown"
   ],
   "note": "All histories, a crash at any step. Refuted: a registered partition on disk is lost if the process is killed before the outstanding write of the state file. Torn and failing writes are left out."
  },
  {
   "property": "C50",
   "status": "proved",
   "theorems": [
    "C50_back_refuted",
    "C50_erase_early_refuted",
    "C50_erase_twice_refuted",
    "C50_erases",
    "C50_leftover_refuted",
    "C50_stays_away"
   ],
   "note": "All histories in which a partition is erased only when registered and not twice at a time. Refuted: erasing twice, erasing a partition between its write and its registration, and erasing left-over files fail an assertion; an erased partition comes back after a crash before its file is removed."
  },
  {
   "property": "C51",
   "status": "proved",
   "theorems": [
    "C51_capacity"
   ],
   "note": "All slices, capacities and histories, including files on disk."
  },
  {
   "property": "C52",
   "status": "partial",
   "theorems": [
    "C52_wah_equal",
    "C52_wah_equal_refuted",
    "C52_wah_exact",
    "C52_wah_operators",
    "C52_wah_operators_refuted",
    "C52_wah_range",
    "C52_wah_rank"
   ],
   "note": "Bits, size, range and counting are exact for every operation sequence (C52_wah_exact, C52_wah_range, C52_wah_rank), operators whenever the range has no empty sequence, and equal bitmaps have equal bits. Two parts of the statement are false of the code: after a run that ends at a multiple of 63 bits the range ends in an empty sequence and the operators violate an assertion (C52_wah_operators_refuted), and equal bits do not imply equality (C52_wah_equal_refuted)."
  },
  {
   "property": "C53",
   "status": "partial",
   "theorems": [
    "C53_alias",
    "C53_alias_refuted",
    "C53_failed_add_refuted",
    "C53_index",
    "C53_nested_alias_refuted",
    "C53_record_order_refuted",
    "C53_rejects",
    "C53_slice"
   ],
   "note": "Proved for columns without aliases inside their types, and for aliases at the top when the type is named (C53_slice, C53_index); basic columns refuse other values unchanged (C53_rejects). The rest is false of the code: a column whose type is an alias reads as null without the type and is not indexed (C53_alias, C53_alias_refuted), aliases inside lists read as null (C53_nested_alias_refuted), a refused list leaves a slot behind that shifts later rows (C53_failed_add_refuted), and records in lists are stored by position whatever their names (C53_record_order_refuted)."
  },
  {
   "property": "C54",
   "status": "partial",
   "theorems": [
    "C54_delete",
    "C54_delete_record_refuted",
    "C54_engine",
    "C54_hash",
    "C54_kept",
    "C54_offset_refuted",
    "C54_order",
    "C54_other",
    "C54_prefix_refuted",
    "C54_replace",
    "C54_replace_read_refuted",
    "C54_replace_type_refuted",
    "C54_twice_refuted",
    "C54_unknown"
   ],
   "note": "Proved for all slices, transforms and steps: C54_other, C54_engine, C54_order, C54_delete, C54_hash, C54_replace, C54_unknown and, over all sequences of steps, C54_kept. False of the code, with witnesses: a value of another type than the column violates an assertion or is taken for one of the column (C54_replace_type_refuted, C54_replace_read_refuted); naming a record violates an assertion (C54_delete_record_refuted); a column whose name extends that of an earlier one is not found (C54_prefix_refuted); a transform without steps loses the offset (C54_offset_refuted); one that names an event twice runs twice (C54_twice_refuted)."
  },
  {
   "property": "C55",
   "status": "partial",
   "theorems": [
    "C55_backslash_refuted",
    "C55_different",
    "C55_enum_refuted",
    "C55_min_refuted",
    "C55_negative_refuted",
    "C55_newline_refuted",
    "C55_prefix_refuted",
    "C55_round_trip",
    "C55_slash_refuted",
    "C55_string_end_refuted",
    "C55_suffix_refuted",
    "C55_text",
    "C55_unnamed_refuted",
    "C55_whole",
    "C55_wrap_refuted"
   ],
   "note": "Proved for nothing, booleans, integers, counts, strings and patterns with printable characters and even runs of backslashes, v4 addresses and subnets, and lists, maps and records of those, nested to any depth (C55_round_trip, C55_whole, C55_different, C55_text). Times are covered by C60; reals and durations are not read back (C60_duration_refuted, C60_real_refuted); v6 addresses depend on the C library and are not covered. The rest is false of the code, with witnesses: no text denotes a string that ends in an odd number of backslashes (C55_backslash_refuted, for all texts); line breaks, slashes in patterns, the smallest integer, counts above the range, enumerations, prefix lengths, records without names and negative components of durations."
  },
  {
   "property": "C56",
   "status": "partial",
   "theorems": [
    "C56_attribute_refuted",
    "C56_blank_refuted",
    "C56_different",
    "C56_double_negation_refuted",
    "C56_field_refuted",
    "C56_means",
    "C56_missing_type_refuted",
    "C56_ni_refuted",
    "C56_nothing_refuted",
    "C56_round_trip",
    "C56_single_refuted"
   ],
   "note": "C56_means and C56_round_trip hold for all queries over meta extractors, field names that are not taken for values, types of any shape (without outer attributes), and the values of C55. The rest is false of the code, with witnesses: a double negation is printed but refused (C56_double_negation_refuted), a query of nothing, a connective of one operand and a field named T are read as something else, an attribute of a type swallows the closing parenthesis (C56_attribute_refuted), a type operator is taken for a comparison (C56_blank_refuted), and reading never ends when no type follows a colon or when +] follows a type (C56_missing_type_refuted, C56_ni_refuted: the recursion exceeds every bound)."
  },
  {
   "property": "C57",
   "status": "partial",
   "theorems": [
    "C57_empty_refuted",
    "C57_field_attribute_refuted",
    "C57_name_refuted",
    "C57_outside_refuted",
    "C57_quoted_refuted",
    "C57_reference",
    "C57_schema",
    "C57_transmit",
    "C57_twice_refuted",
    "C57_type"
   ],
   "note": "Proved for all schemas whose names are identifiers, whose attributes and field names need no quotes, and in which references to named types carry no attributes of their own (C57_schema, C57_transmit, for every order of the hash table). The rest is false of the code: attributes given to a reference are lost when a schema is sent (C57_field_attribute_refuted, C57_twice_refuted), and a quoted field name, a name that is no identifier or a type outside of the schema makes the schema or its rest vanish silently (C57_quoted_refuted, C57_name_refuted, C57_outside_refuted); the empty schema is refused (C57_empty_refuted)."
  },
  {
   "property": "C58",
   "status": "partial",
   "theorems": [
    "C58_alias_expression_refuted",
    "C58_complete",
    "C58_directories",
    "C58_expression_attribute_refuted",
    "C58_merge",
    "C58_no_crash",
    "C58_order",
    "C58_order_refuted",
    "C58_reported",
    "C58_sound",
    "C58_unique"
   ],
   "note": "C58_complete, C58_sound, C58_order, C58_no_crash, C58_reported and C58_directories for all definitions; C58_merge: two schemas merge exactly if they define no name differently, into the definitions of both. False of the code: with a cycle through a replaced type the hash order decides (C58_order_refuted), type expressions over aliases or over types that are no records fail an assertion (C58_alias_expression_refuted), and attributes of a type expression are dropped (C58_expression_attribute_refuted)."
  },
  {
   "property": "C59",
   "status": "partial",
   "theorems": [
    "C59_prefer",
    "C59_prefer_refused",
    "C59_remove",
    "C59_remove_accepted",
    "C59_remove_missing_refuted",
    "C59_remove_other_refuted",
    "C59_sum",
    "C59_sum_refused"
   ],
   "note": "C59_sum, C59_sum_refused, C59_prefer, C59_prefer_refused for all records with distinct field names; C59_remove and C59_remove_accepted for paths whose next name is not a field of the record before it. False of the code: a field that does not exist is removed without an error (C59_remove_missing_refuted), and a field elsewhere of the name that comes next in the path goes as well (C59_remove_other_refuted)."
  },
  {
   "property": "C60",
   "status": "partial",
   "theorems": [
    "C60_backwards",
    "C60_before_refuted",
    "C60_dates",
    "C60_days",
    "C60_decimals",
    "C60_different",
    "C60_duration_refuted",
    "C60_earliest_refuted",
    "C60_exact_refuted",
    "C60_far_refuted",
    "C60_forwards",
    "C60_invalid_refuted",
    "C60_near",
    "C60_real_refuted",
    "C60_seconds_refuted",
    "C60_text",
    "C60_whole"
   ],
   "note": "The calendar is proved for all days (C60_forwards, C60_backwards, C60_days, C60_dates), the text for all times since 1970 (C60_text) and different for all printable times (C60_different). C60_decimals gives the printed decimals of all nonnegative reals whose fraction does not round up. From 1900 on, whole seconds are read back exactly (C60_whole) and all other times as themselves or the nanosecond before (C60_near, by bounding the rounding errors over the reals). False of the code, with witnesses: whole milliseconds are read one nanosecond early (C60_exact_refuted), days that do not exist are read as others (C60_invalid_refuted), times before 1900 are printed but not read (C60_before_refuted), dates after 2262 overflow (C60_far_refuted), the earliest day cannot be printed (C60_earliest_refuted), and durations and reals whose decimals round up to a whole are printed as a tenth (C60_duration_refuted, C60_seconds_refuted, C60_real_refuted)."
  },
  {
   "property": "C61",
   "status": "partial",
   "theorems": [
    "C61_count",
    "C61_done",
    "C61_down_refuted",
    "C61_drains",
    "C61_error",
    "C61_estimate_refuted",
    "C61_extract",
    "C61_extract_all",
    "C61_filter",
    "C61_idle",
    "C61_messages",
    "C61_once",
    "C61_safe",
    "C61_unfit_refuted"
   ],
   "note": "C61_once, C61_idle, C61_done, C61_error, C61_messages, C61_safe and C61_drains for every interleaving; C61_extract, C61_extract_all, C61_filter and C61_count for every slice. False of the code, with witnesses: when a query does not fit a slice, other requests for it are answered done although their events were never looked at (C61_unfit_refuted); a sink that went down is still sent messages if it had asked two queries (C61_down_refuted); an estimated count ends the archive (C61_estimate_refuted)."
  },
  {
   "property": "C62",
   "status": "proved",
   "theorems": [
    "C62_all",
    "C62_done",
    "C62_ends",
    "C62_failed",
    "C62_late_refuted",
    "C62_once",
    "C62_only",
    "C62_order",
    "C62_safe",
    "C62_waits"
   ],
   "note": "C62_done, C62_failed, C62_order, C62_all, C62_only, C62_once, C62_safe, C62_waits and C62_ends for both modes. C62_late_refuted shows beside them that failure may be reported although all actors have ended, when the last reminder overtakes the messages about them."
  },
  {
   "property": "C63",
   "status": "partial",
   "theorems": [
    "C63_absent",
    "C63_blocked",
    "C63_caf",
    "C63_dotted_refuted",
    "C63_flat",
    "C63_flatten",
    "C63_last",
    "C63_limit_refuted",
    "C63_list_after_value",
    "C63_lists",
    "C63_merge",
    "C63_null",
    "C63_only"
   ],
   "note": "C63_last, C63_null, C63_blocked, C63_lists, C63_list_after_value, C63_absent, C63_only and C63_caf for files with fewer than 100 sections in all and names without dots; C63_flatten, C63_flat and C63_merge for the functions on records. Both restrictions are needed: the limit on the depth of records is counted down once per section, so the last of 100 sections loses its options (C63_limit_refuted), and with a dotted name in an earlier file the later file does not win (C63_dotted_refuted). Reading YAML and the conversion to CAF settings are not modelled."
  },
  {
   "property": "C64",
   "status": "partial",
   "theorems": [
    "C64_complete",
    "C64_enum_refuted",
    "C64_limit",
    "C64_misaligned_refuted",
    "C64_no_string_lists",
    "C64_real_refuted",
    "C64_rows",
    "C64_separator_refuted",
    "C64_short_refuted",
    "C64_size_refuted",
    "C64_stalled_limit_refuted",
    "C64_surplus_refuted"
   ],
   "note": "C64_rows, C64_complete and C64_limit for all files whose lines are valid, with the default separators; maps, lists of lists and of enumerations, the header and cells with an attribute for the unit are not covered, and times, durations and reals are taken as the literals of queries (C55, C60). False of the code, with witnesses: an invalid line leaves its first cells in the builder, so that events are imported that no line contains (C64_misaligned_refuted), a line with too many cells is counted as invalid and imported (C64_surplus_refuted), slices become too large (C64_size_refuted) and an assertion fails (C64_short_refuted); an empty cell of an enumeration makes all lines behind it invalid (C64_enum_refuted); lists of strings are never read (C64_no_string_lists); strings swallow cells if the separator of lists is another (C64_separator_refuted); whole numbers are no reals (C64_real_refuted); and the limit is exceeded if the input stalls (C64_stalled_limit_refuted)."
  },
  {
   "property": "C65",
   "status": "partial",
   "theorems": [
    "C65_arrival",
    "C65_cr_refuted",
    "C65_file",
    "C65_lines"
   ],
   "note": "C65_lines and C65_arrival for all texts and all ways of arrival in which the sender does not pause right behind a carriage return that ends a line alone; C65_file: input without pauses is among them. The rest is false of the code: after such a pause the next line is appended to the complete one (C65_cr_refuted). Errors of poll and read are not modelled."
  },
  {
   "property": "C66",
   "status": "partial",
   "theorems": [
    "C66_columns_refuted",
    "C66_edge_refuted",
    "C66_end",
    "C66_ends",
    "C66_hang_refuted",
    "C66_limit",
    "C66_once",
    "C66_query",
    "C66_text",
    "C66_twice_refuted"
   ],
   "note": "C66_limit, C66_end and C66_query for all executions; C66_once unless a slice that lies among the first IDs overlaps earlier ones; C66_ends if no request to the node fails; C66_text for the bounds as they are read again by the node (all but the last nanosecond of the window). False of the code, with witnesses: events are output twice because the number of events is compared to the length of a bitmap (C66_twice_refuted), the exploration never ends if the last request fails (C66_hang_refuted), an event with two times is found though none is in the window (C66_columns_refuted), and one at the very end of the window is missed (C66_edge_refuted)."
  },
  {
   "property": "C67",
   "status": "partial",
   "theorems": [
    "C67_affix_refuted",
    "C67_conditions",
    "C67_contains_refuted",
    "C67_dot_refuted",
    "C67_escape_refuted",
    "C67_no_name_refuted",
    "C67_not_refuted",
    "C67_own_stem_refuted",
    "C67_re",
    "C67_rule_partial",
    "C67_searches",
    "C67_star_paren_refuted",
    "C67_stem_refuted",
    "C67_unknown_refuted",
    "C67_wildcards"
   ],
   "note": "C67_conditions, C67_searches, C67_re, C67_wildcards and C67_rule_partial for all rules with names that are words and values without characters that have a meaning in regular expressions. False of the code, with witnesses: unknown names are accepted and hold for every event (C67_unknown_refuted); a pattern also means searches that have it elsewhere in their name (C67_stem_refuted), is refused if it is the name of a search (C67_own_stem_refuted), and throws before a parenthesis (C67_star_paren_refuted); a search whose name begins with not is negated (C67_not_refuted); escaped wildcards and dots are read as regular expressions (C67_escape_refuted, C67_dot_refuted); startswith and endswith are taken as contains (C67_affix_refuted), and contains is ignored beside wildcards (C67_contains_refuted); a field without a name is undefined (C67_no_name_refuted). Reading YAML and the case of letters are not modelled."
  },
  {
   "property": "C68",
   "status": "partial",
   "theorems": [
    "C68_bar_refuted",
    "C68_empty_list_refuted",
    "C68_enum_refuted",
    "C68_file",
    "C68_import",
    "C68_inner_map_refuted",
    "C68_keys_refuted",
    "C68_limit",
    "C68_list_refuted",
    "C68_map_refuted",
    "C68_one_field",
    "C68_own_header_refuted",
    "C68_pattern_import_refuted",
    "C68_pattern_refuted",
    "C68_quote_refuted",
    "C68_string_lists",
    "C68_strings"
   ],
   "note": "C68_file, C68_limit, C68_strings and C68_one_field for all events whose strings have no bar and which have no maps and no lists of strings, with the calendar and floating point arithmetic of the machine; C68_string_lists: lists of strings are unambiguous; C68_import: values that the reader knows are imported again without loss below a header that it knows. False of the code, with witnesses: layouts with one name share the keys of the first (C68_keys_refuted), a map ends the export of all other events (C68_map_refuted) and one in a list is dropped (C68_inner_map_refuted), bars are doubled (C68_bar_refuted), patterns are not quoted (C68_pattern_refuted), lists of strings are no fields (C68_list_refuted, C68_empty_list_refuted), the import does not know the header of the export (C68_own_header_refuted), and quotes, patterns and enumerations are not read back (C68_quote_refuted, C68_pattern_import_refuted, C68_enum_refuted)."
  },
  {
   "property": "C69",
   "status": "partial",
   "theorems": [
    "C69_choice",
    "C69_dot_refuted",
    "C69_enums_refuted",
    "C69_file",
    "C69_import",
    "C69_integers",
    "C69_line",
    "C69_map_refuted",
    "C69_negative_refuted",
    "C69_nested_refuted",
    "C69_order",
    "C69_others",
    "C69_pattern_refuted",
    "C69_same_names_refuted",
    "C69_seconds",
    "C69_select",
    "C69_tiny_refuted",
    "C69_whole",
    "C69_zero_refuted"
   ],
   "note": "C69_line and C69_file for all events but those with reals that are no integers yet look like one with six digits behind the point, and with maps whose keys are no strings; C69_import and C69_choice for all columns of the types that are named, with times that are whole seconds and IPv4 addresses (others depend on C60 and the C library); C69_order, C69_others, C69_integers, C69_seconds, C69_whole and C69_select for all objects. False of the code, with witnesses: small reals and durations as numbers are no JSON (C69_tiny_refuted), nor are maps with numbers as keys (C69_map_refuted); patterns and enumerations in lists are not read back and negative zero loses its sign (C69_pattern_refuted, C69_enums_refuted, C69_zero_refuted); a negative number becomes a large count without an error (C69_negative_refuted); a layout with records is not found beside others (C69_nested_refuted), of two layouts with the same names the first is taken (C69_same_names_refuted), and a name with a dot hides behind a field (C69_dot_refuted). The library that parses JSON is replaced by a decoder for RFC 8259."
  },
  {
   "property": "C70",
   "status": "partial",
   "theorems": [
    "C70_again",
    "C70_answer",
    "C70_automatic",
    "C70_count",
    "C70_fail_refuted",
    "C70_invalid_refuted",
    "C70_manual_refuted",
    "C70_partitions",
    "C70_taste_refuted"
   ],
   "note": "C70_again for all schedules in which no delayed message arrives during a run, C70_automatic: all schedules without requests are such; C70_partitions and C70_answer for all schedules; C70_count for all counts without failing partitions. False of the code, with witnesses: a delayed message that arrives during a requested run is lost and aging ends forever (C70_manual_refuted), an invalid query is accepted, never runs and requests remain unanswered (C70_invalid_refuted), no run ends if the index is configured to schedule no partitions at first (C70_taste_refuted), and a count is too small without notice if a partition fails (C70_fail_refuted). Which events of a partition are erased is the subject of the stores (C26, C61)."
  },
  {
   "property": "C71",
   "status": "partial",
   "theorems": [
    "C71_again_refuted",
    "C71_backwards_refuted",
    "C71_cutoff",
    "C71_defined",
    "C71_direction",
    "C71_distinct",
    "C71_evicted_refuted",
    "C71_export_refuted",
    "C71_flows",
    "C71_flush_refuted",
    "C71_frame",
    "C71_hang_refuted",
    "C71_not_before",
    "C71_payload",
    "C71_published",
    "C71_reply",
    "C71_short_refuted",
    "C71_snaplen_refuted",
    "C71_stream",
    "C71_tag_refuted",
    "C71_v6_refuted",
    "C71_whole_refuted",
    "C71_written",
    "C71_zero_refuted"
   ],
   "note": "C71_frame, C71_defined, C71_payload for all captured IPv4 frames; C71_not_before for all traces; C71_cutoff for all traces in order with fewer flows than configured and a flow that is not idle for too long; C71_flows, C71_stream, C71_direction, C71_reply, C71_distinct, C71_published (the identifier is the one that is published as version 1, for a given SHA-1) and C71_written. False of the code, with witnesses: IPv6 addresses are recorded as IPv4 addresses of their first four bytes (C71_v6_refuted), packets captured in part are read beyond their end (C71_snaplen_refuted), a short frame ends the import and loses events (C71_short_refuted) or is undefined with a VLAN tag (C71_tag_refuted), the packet that reaches the cutoff is recorded whole (C71_whole_refuted), flows are evicted below the limit or by an older packet and go on after the cutoff (C71_evicted_refuted, C71_backwards_refuted), the limit of flows does not hold with a cutoff of zero (C71_zero_refuted) and hangs at zero (C71_hang_refuted), events without identifier cannot be exported (C71_export_refuted), flushing counts slices (C71_flush_refuted), and exported traces are not read again (C71_again_refuted). SHA-1 is a parameter."
  },
  {
   "property": "C72",
   "status": "partial",
   "theorems": [
    "C72_again",
    "C72_backslash_refuted",
    "C72_cell_refuted",
    "C72_complete",
    "C72_dash_refuted",
    "C72_empty_last_refuted",
    "C72_empty_refuted",
    "C72_enum_refuted",
    "C72_hash_refuted",
    "C72_header_refuted",
    "C72_map_refuted",
    "C72_pattern_refuted",
    "C72_read",
    "C72_separator_refuted",
    "C72_shared_refuted",
    "C72_trailing",
    "C72_types",
    "C72_unescaped_refuted",
    "C72_written"
   ],
   "note": "C72_read and C72_complete for all logs with a complete header and one byte as separator (subnets, patterns, sets of sets and IPv6 addresses are not in the specification of cells); C72_types; C72_written for all slices of booleans, counts, integers, strings without backslash, IPv4 addresses, nulls and lists of them, if no row begins with a number sign; C72_again: such rows are imported again below a header of Zeek unless a string is empty, a dash or (empty). False of the code: no exported log can be imported with its own header (C72_header_refuted, for all slices); with witnesses: events that begin with a number sign become comments (C72_hash_refuted), backslashes are not escaped (C72_backslash_refuted) and a trailing one empties the string (C72_unescaped_refuted), empty strings end the import or lose the event (C72_empty_refuted, C72_empty_last_refuted), a dash becomes null (C72_dash_refuted), one malformed cell ends the import (C72_cell_refuted), columns of patterns take no values (C72_pattern_refuted), a separator that is no number is an uncaught exception (C72_separator_refuted), layouts of one name share a header (C72_shared_refuted), enumerations have no type (C72_enum_refuted), and a map ends the export and its row gets into the next one (C72_map_refuted). Real numbers and times are printed by the C library."
  },
  {
   "property": "C73",
   "status": "partial",
   "theorems": [
    "C73_again",
    "C73_complete",
    "C73_convert_refuted",
    "C73_field",
    "C73_flush",
    "C73_lines",
    "C73_order_refuted",
    "C73_point_refuted",
    "C73_told"
   ],
   "note": "C73_told, C73_lines, C73_flush and C73_complete for all lines, selectors, conversions and schedules; C73_field for all schemas with distinct names of which none ends in a point; C73_again for all events that C69_choice covers. False of the code: a line with a value that cannot be converted counts as invalid and yet its event is imported (C73_convert_refuted), the order between layouts is not kept (C73_order_refuted), and a layout whose name has another point behind the prefix is never found (C73_point_refuted, for all such names). The library that parses JSON is replaced by a decoder for RFC 8259; builders that fail are not modelled."
  },
  {
   "property": "C74",
   "status": "partial",
   "theorems": [
    "C74_end",
    "C74_ends",
    "C74_found",
    "C74_hang_refuted",
    "C74_ids",
    "C74_nested_refuted",
    "C74_record_refuted",
    "C74_shared_refuted",
    "C74_text",
    "C74_text_refuted",
    "C74_twice_refuted"
   ],
   "note": "C74_ids, C74_found and C74_end for all schedules in which the status of the first query arrives behind its results, if the first field that the connecting name stands for is a column of the event itself; C74_ends if no request to the node fails; C74_text for identifiers of printable characters. False of the code, with witnesses: pivoting never ends if the last request fails (C74_hang_refuted), an identifier that was asked for in one field is not asked for in another (C74_shared_refuted), an event with two columns of the name is output twice (C74_twice_refuted), a field of the name within an earlier record is taken instead (C74_nested_refuted), a record of the name violates an assertion (C74_record_refuted), and an identifier that ends in a backslash makes the query unreadable and loses the others of its slice (C74_text_refuted)."
  },
  {
   "property": "C75",
   "status": "partial",
   "theorems": [
    "C75_any_order",
    "C75_apart",
    "C75_asked",
    "C75_crash_refuted",
    "C75_get",
    "C75_get_refuted",
    "C75_history",
    "C75_known",
    "C75_load",
    "C75_loaded",
    "C75_notices",
    "C75_only",
    "C75_order_refuted",
    "C75_return_refuted",
    "C75_unique",
    "C75_unwritten_refuted"
   ],
   "note": "C75_history for all histories, C75_known if every stop is orderly and the file can be written and read, C75_unique, C75_notices, C75_asked and C75_only for taxonomies without models and names of layouts that are not prefixes of each other, C75_load, C75_loaded, C75_any_order (success, fields and models), C75_apart, C75_get. False of the code, with witnesses: layouts are saved only on an orderly stop, so after a crash or a failed save queries about concepts stay unresolved; what a concept refers to depends on the order of the files; a change back to a layout seen before is not reported; the request for all known types is answered with the configured schema only. The serialization of the layouts is taken to be faithful."
  },
  {
   "property": "C76",
   "status": "partial",
   "theorems": [
    "C76_bytes_refuted",
    "C76_clean",
    "C76_failure_refuted",
    "C76_history",
    "C76_leftover_refuted",
    "C76_read",
    "C76_read_statistics",
    "C76_read_succeeds",
    "C76_replaced_refuted",
    "C76_save",
    "C76_save_succeeds",
    "C76_seek_refuted",
    "C76_statistics",
    "C76_successes"
   ],
   "note": "C76_save, C76_history and C76_successes for all outcomes of system calls and all crash points, as long as no save is shorter than one of the same file that failed or crashed since the last success; C76_save_succeeds, C76_read, C76_read_succeeds, C76_statistics and C76_read_statistics (numbers of requests), C76_clean (no temporary file is left behind one failure). False of the code, with witnesses: the temporary file is opened without O_TRUNC, so that a shorter save after a crash or a failed removal succeeds and leaves the end of the other content in the file; a file that is replaced between the two looks of a read is read in part; skipping bytes reports failure when it succeeds; the statistics count one byte too many for each request. Loss of data that was not synced, in a crash of the operating system, is not modelled."
  },
  {
   "property": "C77",
   "status": "partial",
   "theorems": [
    "C77_empty_refuted",
    "C77_exclusive",
    "C77_next",
    "C77_race_refuted",
    "C77_recycled_refuted",
    "C77_refused",
    "C77_shorter_refuted"
   ],
   "note": "C77_exclusive, C77_refused and C77_next for all histories with crashes in which starts do not overlap and process identifiers have the same number of digits. False of the code, with witnesses: the file is opened without O_TRUNC, so that a shorter identifier over a longer one leaves a number of no process and a third node starts while the second runs; two nodes that look at the file at the same time both start, as the lock is held only while the file is written; a process identifier that was given to another program after a crash keeps all nodes out; a crash between creating and writing the file keeps all later nodes out."
  },
  {
   "property": "C78",
   "status": "partial",
   "theorems": [
    "C78_bare_refuted",
    "C78_data_refuted",
    "C78_element_refuted",
    "C78_flush",
    "C78_lines",
    "C78_message",
    "C78_one",
    "C78_only",
    "C78_sizes",
    "C78_utf8_refuted"
   ],
   "note": "C78_message for all messages whose elements have parameters with printable ASCII values and that have a text or structured data, C78_only conversely for all lines, C78_one, C78_lines, C78_sizes and C78_flush for all schedules. False of the code, with witnesses: a message without structured data and text becomes an event of the unknown layout, as the dash must be followed by a space; so do messages with an element without parameters or with a value that is not ASCII; structured data is dropped. The parser of times is a parameter of the theorems (any that consumes a prefix); a dash in the header becomes an empty string."
  },
  {
   "property": "C79",
   "status": "partial",
   "theorems": [
    "C79_all",
    "C79_error",
    "C79_exact",
    "C79_limit",
    "C79_limit_refuted",
    "C79_prefix",
    "C79_transform_refuted"
   ],
   "note": "C79_prefix for all inputs, C79_exact, C79_all, C79_limit, C79_error. False of the code, with witnesses: a new limit that is already reached is ignored and the export goes on to the old one; a slice whose transformation fails is left out and the export ends without an error. Flushes and reports are left out."
  },
  {
   "property": "C80",
   "status": "partial",
   "theorems": [
    "C80_check",
    "C80_killed_refuted",
    "C80_line_refuted",
    "C80_new",
    "C80_stable"
   ],
   "note": "C80_check for all contents, C80_new and C80_stable for all sequences of starts. False of the code, with witnesses: a node that is killed before the first line of the version file is written makes the new directory unusable for all later starts; a file without a line feed at its end is refused, since the position npos counts as true."
  },
  {
   "property": "C81",
   "status": "partial",
   "theorems": [
    "C81_datagram_refuted",
    "C81_exit",
    "C81_file",
    "C81_finite_refuted",
    "C81_full",
    "C81_internal",
    "C81_off",
    "C81_path_refuted",
    "C81_retry_refuted",
    "C81_size_refuted",
    "C81_socket"
   ],
   "note": "C81_internal, C81_exit, C81_off and C81_full for all histories under one configuration, C81_file and C81_socket for all histories with configurations that switch one output on and off. False of the code, with witnesses: a socket for datagrams stays on when it is switched off; a new path for an output that is on is ignored; an output that could not be opened is not tried again by the same configuration; when the size of slices is lowered below the number of rows at hand no slice is finished any more; values that are not finite are written to files and not recorded internally. Values are abstract, times are left out; reports are taken as lists of metrics."
  },
  {
   "property": "C82",
   "status": "partial",
   "theorems": [
    "C82_core",
    "C82_core_refuted",
    "C82_kill_refuted",
    "C82_label",
    "C82_made",
    "C82_made_refuted",
    "C82_once",
    "C82_put_refuted",
    "C82_single_refuted",
    "C82_type"
   ],
   "note": "C82_label, C82_type and C82_core for all histories in which no actor is registered twice, C82_made for all histories, C82_once for those in which single components are asked for without labels and do not come from other processes. False of the code, with witnesses: with a label of its own a second single component is started; other processes add any number of them; a label made by the node may be one a user chose, and the component is then started and not registered; a component that is killed while the note of its end is under way makes the node use a component that does not exist; the node goes on without an essential component that is killed. The shutdown of the node is not modelled."
  }
 ]
}