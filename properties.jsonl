{"id": "C01", "title": "Compressed bitmaps store exactly the bits appended", "statement": "After any sequence of append_bit, append_bits, append_block and flip calls on the default (EWAH) bitmap, its size is the number of bits appended, and iterating its bit range yields, in order, exactly the logical bit sequence (with flip complementing everything appended so far), whatever the run structure.", "quantifier": "all finite sequences of append/flip operations, with arbitrary run lengths and block contents", "why_tests_cant": "The compressed representation depends on the whole history of appends (partial last block, clean and dirty counters, marker overflow); unit tests only sample a few histories.", "anchors": ["libvast/src/ewah_bitmap.cpp: ewah_bitmap::append_bit, append_bits, append_block, flip, integrate_last_block, bump_dirty_count, ewah_bitmap_range", "libvast/vast/ewah_bitmap.hpp"]}
{"id": "C02", "title": "Boolean operations on bitmaps are pointwise", "statement": "For any two bitmaps, the result of &, |, ^ and - has the size of the longer operand and its i-th bit is the boolean function of the i-th bits of the operands, where missing bits of the shorter operand count as 0, independent of how runs of either operand are split.", "quantifier": "all pairs of bitmaps (all bit sequences, all segmentations into runs and literal words)", "why_tests_cant": "The merge loop walks two independently segmented run sequences; the number of interleavings is unbounded.", "anchors": ["libvast/vast/bitmap_algorithms.hpp: binary_eval, binary_and, binary_or, binary_xor, binary_nand, binary_nor", "libvast/vast/bits.hpp", "libvast/vast/bitmap_base.hpp"]}
{"id": "C03", "title": "Counting and selecting set bits is exact", "statement": "rank counts exactly the set bits up to a position, select(i) returns the position of the i-th set bit or npos, and iterating a bitmap's ones visits each set position exactly once in increasing order.", "quantifier": "all bitmaps, all positions and ranks", "why_tests_cant": "Word-level bit tricks interact with run boundaries and partial last words; only a proof covers all widths and offsets.", "anchors": ["libvast/vast/bitmap_algorithms.hpp: rank, select, bitwise_range, select_range", "libvast/vast/word.hpp", "libvast/vast/bits.hpp"]}
{"id": "C04", "title": "Uncompressed bitmaps hold and iterate exactly their content", "statement": "After any sequence of permitted pushes, pops, resizes, appended blocks, single-bit writes, flips and clears, a bitvector has the size of, reads as, and counts the bits of the list of bits that the same operations make. Two bitvectors compare equal exactly when they have the same bits. The bit range of the uncompressed (null) bitmap yields exactly its content.", "quantifier": "all operation sequences on bitvector and null_bitmap, all sizes and block values", "why_tests_cant": "Errors show only for particular block patterns around word boundaries.", "anchors": ["libvast/vast/bitvector.hpp", "libvast/src/null_bitmap.cpp: null_bitmap_range::scan"]}
{"id": "C05", "title": "ID sets denote exactly the requested ranges", "statement": "make_ids of a list of half-open ranges yields a bitmap whose set positions are exactly the union of the ranges, padded to the requested minimal size.", "quantifier": "all lists of well-formed ranges in any order, overlapping or not, and all minimal sizes", "why_tests_cant": "Ranges arrive in arbitrary order and overlap; tests list a few.", "anchors": ["libvast/src/ids.cpp: make_ids", "libvast/vast/ids.hpp"]}
{"id": "C06", "title": "Bitmap coders answer every relational query exactly", "statement": "For the singleton, equality, range and bitslice coders, after encoding any sequence of values (with arbitrary repeat counts and skips), decode(op, x) returns a bitmap that has bit i set exactly if value i satisfies `value op x`, for each operator the coder supports.", "quantifier": "all value sequences, all operators the coder supports, all operands in the coder's domain", "why_tests_cant": "The answer composes several compressed bitmaps under boolean algebra for every operand; tests check a handful of values.", "anchors": ["libvast/vast/coder.hpp: singleton_coder, equality_coder, range_coder, bitslice_coder"]}
{"id": "C07", "title": "Multi-level (multi-component) coding is exact", "statement": "Decomposing values in a mixed-radix base, coding each digit with a component coder, and evaluating a relational operator digit by digit gives exactly the positions whose values satisfy the operator, provided values and operand lie below the product of the base.", "quantifier": "all well-defined bases, all value sequences below the base product, all operators", "why_tests_cant": "RangeEval-Opt relies on a digit-wise recursion that must be right for every base and operand.", "anchors": ["libvast/vast/coder.hpp: multi_level_coder", "libvast/vast/base.hpp", "libvast/src/base.cpp: base::well_defined, decompose, compose"]}
{"id": "C08", "title": "Order transformation of numeric keys is monotone", "statement": "The mapping from signed integers to unsigned keys used by the numeric indexes is injective and order preserving, and binning is monotone, so range queries over keys agree with range queries over values.", "quantifier": "all 64-bit values and all binning parameters", "why_tests_cant": "Boundary values (minimum, sign change) and division semantics matter for all inputs.", "anchors": ["libvast/vast/detail/order.hpp: order", "libvast/vast/binner.hpp: identity_binner, precision_binner, decimal_binner"]}
{"id": "C09", "title": "Numeric index lookups have no false negatives", "statement": "For a column of numeric values (with nils and gaps), a lookup of `op x` in the value index returns every row whose value satisfies the predicate; for unbinned types it returns exactly those rows.", "quantifier": "all append histories (including skipped row positions and nil values), all supported operators and operands", "why_tests_cant": "Combination of nil mask, gap rows, binning and coder evaluation over arbitrary histories.", "anchors": ["libvast/src/value_index.cpp: value_index::append, lookup", "libvast/vast/index/arithmetic_index.hpp", "libvast/vast/bitmap_index.hpp"]}
{"id": "C10", "title": "Null semantics of index lookups", "statement": "Looking up `== nil` returns exactly the rows appended as nil, and `!= nil` exactly the rows appended with a non-nil value; rows never appended to this index are in neither.", "quantifier": "all append histories with skipped positions", "why_tests_cant": "Depends on every history of skips between appends from different layouts.", "anchors": ["libvast/src/value_index.cpp: value_index::append, value_index::lookup"]}
{"id": "C11", "title": "Address and subnet index lookups agree with direct evaluation", "statement": "Address index lookups for ==, !=, in/not_in a subnet, and subnet index lookups for ==, in and ni, return exactly the rows for which direct evaluation of the predicate on the stored value is true.", "quantifier": "all columns of addresses/subnets and all operands, for all prefix lengths", "why_tests_cant": "Prefix-length arithmetic has 129 cases per family and depends on column content.", "anchors": ["libvast/src/index/address_index.cpp", "libvast/src/index/subnet_index.cpp", "libvast/src/address.cpp", "libvast/src/subnet.cpp"]}
{"id": "C12", "title": "String index lookups agree with direct evaluation", "statement": "String index lookups for ==, !=, ni and not_ni return at least (and for strings within the length limit exactly) the rows whose string satisfies the predicate.", "quantifier": "all columns of strings, all operand strings, all length limits", "why_tests_cant": "Substring positions, row alignment of per-character bitmaps and truncation need arbitrary strings.", "anchors": ["libvast/src/index/string_index.cpp"]}
{"id": "C13", "title": "Hash index equality lookups never miss", "statement": "For any column, hash index lookups of `== x` (and `in`) return every row that equals x, for any hash function, including when digests collide.", "quantifier": "all columns, all hash functions, all collision patterns", "why_tests_cant": "Collisions cannot be produced systematically in tests.", "anchors": ["libvast/vast/index/hash_index.hpp"]}
{"id": "C14", "title": "List index membership lookups never miss", "statement": "List index lookups of `ni x` return every row whose list contains x among its indexed elements; the negated lookup returns the complement among non-nil rows.", "quantifier": "all columns of lists, all operands", "why_tests_cant": "Rows are spread over per-position element indexes whose lengths differ.", "anchors": ["libvast/src/index/list_index.cpp", "libvast/vast/index/container_lookup.hpp"]}
{"id": "C15", "title": "Bloom filters never forget", "statement": "After adding any set of values to a Bloom filter of any size and any number of hash functions, looking up any added value returns true; adding more values never removes one.", "quantifier": "all value sequences, filter sizes and hash families", "why_tests_cant": "Universally quantified over hash functions and insertion histories.", "anchors": ["libvast/vast/bloom_filter.hpp", "libvast/vast/bloom_filter_synopsis.hpp", "libvast/vast/buffered_synopsis.hpp"]}
{"id": "C16", "title": "Column synopses never exclude a matching value", "statement": "If some value added to a synopsis satisfies `value op rhs`, then the synopsis lookup for (op, rhs) does not return false.", "quantifier": "all sequences of added values, all operators and operands", "why_tests_cant": "Must hold for every set of values; one counterexample loses query results.", "anchors": ["libvast/vast/min_max_synopsis.hpp", "libvast/src/bool_synopsis.cpp", "libvast/src/time_synopsis.cpp", "libvast/vast/bloom_filter_synopsis.hpp"]}
{"id": "C17", "title": "The meta index never excludes a partition with a matching event", "statement": "For every expression and every set of partitions, if a partition contains an event for which the expression evaluates to true, the meta index lookup returns that partition.", "quantifier": "all expressions, all partition contents", "why_tests_cant": "Soundness of pruning must hold compositionally over expression trees and arbitrary partition contents.", "anchors": ["libvast/src/system/meta_index.cpp: meta_index_state::lookup, lookup_impl", "libvast/src/partition_synopsis.cpp"]}
{"id": "C18", "title": "Negated relational operators are exact complements", "statement": "For every pair of values, evaluating a predicate with a negated operator gives the negation of evaluating it with the original operator, and negate is an involution.", "quantifier": "all pairs of values of all types, all relational operators", "why_tests_cant": "Value types are recursive; the type combinations are unbounded.", "anchors": ["libvast/src/data.cpp: evaluate", "libvast/src/operator.cpp: negate, is_negated"]}
{"id": "C19", "title": "Normalising an expression preserves its meaning", "statement": "normalize, hoist, align and denegate return expressions that evaluate identically on every event, for every valuation of predicates, and normalised expressions contain no negation and have extractors on the left.", "quantifier": "all expression trees of any depth and arity, all events", "why_tests_cant": "Tree rewriting over unboundedly nested expressions.", "anchors": ["libvast/src/expression.cpp: hoist, normalize", "libvast/src/expression_visitors.cpp: hoister, aligner, denegator, deduplicator"]}
{"id": "C20", "title": "Candidate checks keep exactly the matching rows", "statement": "Filtering a table slice by an expression and ID hints keeps exactly the rows whose ID is in the hints and for which the expression holds, in order, and count_matching returns the number of rows filter keeps.", "quantifier": "all slices, all expressions, all hint sets", "why_tests_cant": "Hints, offsets and early-exit shortcuts interact; all sets must be considered.", "anchors": ["libvast/src/table_slice.cpp: filter, count_matching, evaluate, select"]}
{"id": "C21", "title": "Removing meta predicates never changes the answer", "statement": "Pruning #type/#field predicates from a query before the candidate check keeps the set of resulting events unchanged when the index has already applied them.", "quantifier": "all expressions mixing meta and data predicates, all events", "why_tests_cant": "Boolean structure matters for every nesting; a disjunction is enough to break it.", "anchors": ["libvast/src/expression_visitors.cpp: meta_pruner", "libvast/src/system/archive.cpp", "libvast/src/system/local_segment_store.cpp"]}
{"id": "C22", "title": "Partition evaluation is independent of response order", "statement": "A partition evaluation delivers exactly once, after all per-field responses (results or errors) arrived, and the delivered ID set equals evaluating the boolean expression over the per-predicate unions, whatever the arrival order.", "quantifier": "all expressions, all numbers of field responses, all interleavings", "why_tests_cant": "Schedules grow factorially with the number of indexers.", "anchors": ["libvast/src/system/evaluator.cpp: evaluator_state::handle_result, handle_missing_result, evaluate, decrement_pending"]}
{"id": "C23", "title": "Event IDs are never reused across restarts and crashes", "statement": "Over any sequence of imports, clean shutdowns, restarts and crashes, the ID ranges handed out by the importer are pairwise disjoint and increasing, as long as writes of the state file are atomic.", "quantifier": "all histories of imports, shutdowns, restarts and crash points", "why_tests_cant": "Crash points and histories are unbounded.", "anchors": ["libvast/src/system/importer.cpp: read_state, write_state, get_next_block, next_id"]}
{"id": "C24", "title": "The range map behaves as a partial function on points", "statement": "insert and inject succeed exactly when the new interval overlaps no existing one and then extend the point-to-value mapping by exactly that interval; erase and erase_value remove exactly the named points; lookup and find agree with the mapping.", "quantifier": "all operation sequences over arbitrary interval sets", "why_tests_cant": "Adjacent-interval merging depends on the whole map state.", "anchors": ["libvast/vast/detail/range_map.hpp"]}
{"id": "C25", "title": "LRU caches keep the most recently used entries", "statement": "An LRU cache never exceeds its capacity, its key index and entry list describe the same set of entries, and it holds exactly the most recently used distinct keys with the last value stored for each.", "quantifier": "all operation sequences, all positive capacities", "why_tests_cant": "Eviction depends on the whole access history.", "anchors": ["libvast/vast/detail/lru_cache.hpp", "libvast/vast/detail/flat_lru_cache.hpp"]}
{"id": "C26", "title": "The segment store returns what was put and not erased", "statement": "After any sequence of put, flush and erase operations, extracting or looking up an ID set returns exactly the stored rows with those IDs that have not been erased, each once.", "quantifier": "all operation sequences, all ID sets", "why_tests_cant": "State spans the active segment, cache and files; histories are unbounded.", "anchors": ["libvast/src/segment_store.cpp", "libvast/src/segment.cpp", "libvast/src/segment_builder.cpp"]}
{"id": "C27", "title": "The segment store survives crashes during erase", "statement": "If the process crashes at any point of an erase, reopening the store succeeds and still contains every row outside the erased set.", "quantifier": "all store contents, erase sets and crash points", "why_tests_cant": "Crash points between file operations cannot be enumerated by unit tests.", "anchors": ["libvast/src/segment_store.cpp: segment_store::erase, register_segments"]}
{"id": "C28", "title": "Every candidate partition is scheduled exactly once per query", "statement": "For a query over a set of candidate partitions, repeated requests for more results schedule each candidate at most once, eventually all of them, and afterwards the query is forgotten, whatever batch sizes the client uses.", "quantifier": "all candidate sets, all sequences of batch requests, all loaded/unloaded states and load failures", "why_tests_cant": "Schedules and batch sizes are unbounded.", "anchors": ["libvast/src/system/index.cpp: index_state::collect_query_actors, schedule_lookups"]}
{"id": "C29", "title": "No event is invisible to queries while partitions change state", "statement": "At every point of the life cycle active, decommissioned, persisting, persisted, an ingested event belongs to exactly one partition that a query starting now considers a candidate (subject to the meta index).", "quantifier": "all interleavings of imports, rollovers, persist completions and queries", "why_tests_cant": "Concurrency between persisting and querying.", "anchors": ["libvast/src/system/index.cpp: create_active_partition, decomission_active_partition"]}
{"id": "C30", "title": "Query drivers terminate after exactly the advertised partitions", "statement": "A query processor requests results until the number of received partitions equals the number of candidates announced, never requests more than are left, and then becomes idle; a query supervisor reports done exactly once per query and then returns to the pool once.", "quantifier": "all response sequences and batch sizes", "why_tests_cant": "Unbounded asynchronous message histories.", "anchors": ["libvast/src/system/query_processor.cpp", "libvast/src/system/query_supervisor.cpp"]}
{"id": "C31", "title": "Exporters neither lose, duplicate nor over-deliver results", "statement": "At all times an exporter has shipped at most the number of events requested, in arrival order, and the shipped events followed by the cached events are exactly the events received.", "quantifier": "all interleavings of result arrivals and extraction requests", "why_tests_cant": "Unbounded message histories.", "anchors": ["libvast/src/system/exporter.cpp: ship_results, handle_batch, request_more_hits, buffer_hits"]}
{"id": "C32", "title": "Erasing from a store removes only events that were asked for", "statement": "Whatever is asked of the store of a persisted partition, with restarts anywhere, it loses no event unless one request covers all of its events; lookups return exactly the stored events that were asked for; and a request that covers all events, on a store just started, removes the file for good (when the process runs in the database directory). While a partition is still being filled, erasing an ID set leaves exactly the remaining events for later lookups and in the file finally written. Requests for only some events of a persisted partition have no effect and are never answered, against what the interface promises.", "quantifier": "all contents, all sequences of lookups, erase requests, additions and restarts", "why_tests_cant": "Histories of several erases with restarts in between.", "anchors": ["libvast/src/system/local_segment_store.cpp: passive_local_store erase handler"]}
{"id": "C33", "title": "Disk budget enforcement deletes oldest-first and stops at the low-water mark", "statement": "Partitions are only asked to be deleted after the database was found above the high-water mark; each pass asks for the oldest ones by modification time, at most a step's worth, and a pass follows only while the size is above the low-water mark. With a step size of one and no scan during a purge no partition is deleted once the size is at or below the low-water mark, and the purge reaches that mark. With a larger step size, or when a scan falls into a purge, more can be deleted than needed.", "quantifier": "all partition sets, sizes, step sizes and interleavings of responses", "why_tests_cant": "Asynchronous continuations; interleavings are unbounded.", "anchors": ["libvast/src/system/disk_monitor.cpp"]}
{"id": "C34", "title": "Variable-byte coding round-trips", "statement": "Decoding the encoding of any unsigned value returns the value and consumes exactly the bytes written, also when followed by arbitrary further bytes; the number of bytes equals the size computed in advance.", "quantifier": "all unsigned values of each width, all trailing bytes", "why_tests_cant": "2^64 values.", "anchors": ["libvast/vast/detail/varbyte.hpp: size, max_size, encode, decode"]}
{"id": "C35", "title": "Base64 round-trips", "statement": "The Base64 encoding of any byte string is the one RFC 4648 defines, has the predicted length and decodes to the byte string. Decoding any text whose length is a multiple of four stays within the buffer reserved for it.", "quantifier": "all byte strings, all texts, all initial contents of the working memory", "why_tests_cant": "Unbounded inputs and three residue classes per length.", "anchors": ["libvast/src/detail/base64.cpp", "libvast/vast/detail/base64.hpp"]}
{"id": "C36", "title": "String escaping round-trips", "statement": "Unescaping an escaped string returns the original: for the JSON, percent and escape-everything escapers for every byte string, for the print escaper for every string without a backslash. Escaped texts have the forms the RFCs for JSON and URIs define, and unescaping arbitrary input does not read behind its end.", "quantifier": "all byte strings", "why_tests_cant": "All 256 byte values in all contexts.", "anchors": ["libvast/vast/detail/escapers.hpp", "libvast/src/detail/string.cpp", "libvast/vast/detail/coding.hpp"]}
{"id": "C37", "title": "MessagePack encoding round-trips and can be skipped", "statement": "Any value of a column type that holds no records is written by the builder, decoded back to the same value, and advancing an overlay over it moves exactly past the bytes written; a table slice in this encoding returns every value added at its row and column. Maps are limited to 7, to 16-32767 or to 65536-2147483647 entries, lists and strings to 2^32-1. Times come back unless they are whole seconds between 2038 and 2106 or lie before 1970 with a fraction of a second; byte sequences of up to 255 bytes cannot be skipped.", "quantifier": "all types and values (integers, strings, addresses, subnets, lists, maps of any nesting), all following bytes, any number of rows", "why_tests_cant": "Recursive unbounded data.", "anchors": ["libvast/vast/msgpack.hpp: visit, overlay", "libvast/src/msgpack.cpp: overlay::next", "libvast/vast/msgpack_builder.hpp: put, proxy", "libvast/src/msgpack_table_slice_builder.cpp: encode, add_impl", "libvast/src/msgpack_table_slice.cpp: decode, at"]}
{"id": "C38", "title": "Subnets contain exactly the addresses sharing their prefix", "statement": "A subnet contains an address exactly if the top bits up to the prefix length agree, masking is idempotent, and containment of subnets is reflexive, transitive and antisymmetric.", "quantifier": "all addresses and prefix lengths", "why_tests_cant": "2^128 addresses times 129 lengths.", "anchors": ["libvast/src/subnet.cpp", "libvast/src/address.cpp: mask, compare"]}
{"id": "C39", "title": "Sorted-set operations compute set union and intersection", "statement": "Intersecting or unifying sorted duplicate-free sequences (in place or not) gives the sorted duplicate-free intersection or union.", "quantifier": "all pairs of sorted sequences", "why_tests_cant": "Unbounded inputs.", "anchors": ["libvast/vast/detail/set_operations.hpp"]}
{"id": "C40", "title": "Concepts and models in queries mean the fields they stand for", "statement": "Definitions of a concept spread over schema files add up. Resolving names returns exactly the fields they stand for, at any depth and with cyclic references, for fewer than 100 concepts. A query about concepts, once resolved, is true exactly when it is true of some field of each concept; leaving out fields that no layout has changes nothing when such fields could not match; a model compared with a record means the conjunction over its concepts. References more than one level deep are not followed in queries, against what the interface promises.", "quantifier": "all definitions, concept maps (also cyclic), models, expressions and truth assignments", "why_tests_cant": "Arbitrary reference graphs and expressions.", "anchors": ["libvast/src/taxonomies.cpp: convert, extract_concepts, resolve_concepts, contains, resolve_impl, resolve", "libvast/vast/expression.hpp: predicate_transformer"]}
{"id": "C41", "title": "Table slice selection and splitting preserve rows", "statement": "Selecting rows by an ID set, truncating and splitting a slice return slices that together contain exactly the selected rows with their original IDs, in order.", "quantifier": "all slices and ID sets", "why_tests_cant": "All ID sets and offsets.", "anchors": ["libvast/src/table_slice.cpp: select, truncate, split"]}
{"id": "C42", "title": "Expression evaluation over bitmaps agrees with row evaluation", "statement": "Evaluating a normalised boolean expression over per-predicate ID sets gives the same rows as evaluating the expression on each row.", "quantifier": "all expressions and all rows", "why_tests_cant": "All trees and all row sets.", "anchors": ["libvast/src/system/evaluator.cpp: ids_evaluator", "libvast/src/table_slice.cpp: row_evaluator"]}
{"id": "C43", "title": "Offsets, keys and columns of a record type agree", "statement": "For every record type, iterating over it yields each leaf once in document order; converting an offset to a flat column index and back is the identity; flattening lists the leaves in column order under their dotted names; at and resolve find a leaf by its offset and its key; removing a leaf removes exactly its column; the number of leaves is the number of columns.", "quantifier": "all record types of any nesting and width, all offsets and indexes", "why_tests_cant": "Nesting is unbounded and every operation walks the tree in its own way; tests check a few layouts.", "anchors": ["libvast/src/type.cpp: record_type::each, num_leaves, resolve, at, flat_index_at, offset_from_index, flat_field_at, assign, remove_field, flatten, flat_size"]}
{"id": "C44", "title": "Congruence of types is an equivalence relation", "statement": "Congruence of types is reflexive, symmetric and transitive, holds exactly when the types agree after dropping names, attributes and aliases at every level, and is implied by equality, which compares all parts.", "quantifier": "all types of any nesting", "why_tests_cant": "Types are recursive and aliases may occur at any depth.", "anchors": ["libvast/src/type.cpp: congruent, type_congruence_checker, operator=="]}
{"id": "C45", "title": "An extractor stands for exactly the columns it names", "statement": "A query predicate on a field name or type is true of an event exactly if some column of the event that the extractor names (by full name or glob pattern, or by type) satisfies the operator; for negated operators, if there is such a column and all of them satisfy it. Parts of a query that name no column are false.", "quantifier": "all layouts of any nesting, all rows, all validated queries without negations", "why_tests_cant": "Layouts and queries are recursive; the rewriting of a query for a layout interacts with names, aliases, attributes and operators.", "anchors": ["libvast/src/expression_visitors.cpp: type_resolver", "libvast/src/expression.cpp: tailor", "libvast/src/type.cpp: record_type::find_suffix", "libvast/src/table_slice.cpp: evaluate"]}
{"id": "C46", "title": "Merging, comparing and editing record types loses no field", "statement": "Merging two record types fails exactly if some path of field names leads to two different types that are not both records, and otherwise yields the fields of both; merging with a preference always succeeds, keeps every field of the preferred record and drops of the other one only fields in its way; fields keep their order and attributes follow the preference; a record is a subset of another exactly if all its paths lead to records or congruent types there; removing a column leaves no empty record behind.", "quantifier": "all pairs of record types with distinct field names, all depths, both preferences", "why_tests_cant": "The operations recurse over two trees at once; tests use a few small layouts.", "anchors": ["libvast/src/type.cpp: merge, priority_merge, remove_field, is_subset, update_attributes"]}
{"id": "C47", "title": "Type checks accept exactly the values of a type", "statement": "Checking a value against a type succeeds for every value that conforms to it; it rejects every other value whose lists and maps have at most one element, and in general decides by the first element of each list and map.", "quantifier": "all types and all values of any nesting", "why_tests_cant": "Types and values are recursive and unbounded.", "anchors": ["libvast/src/type.cpp: type_check"]}
{"id": "C48", "title": "Validation accepts exactly the expressions that can be asked", "statement": "An expression is accepted if and only if it has no empty operand, every predicate compares an extractor on the left with a value on the right, patterns are valid, meta extractors are compared with text, and the value fits the type and operator of a type extractor.", "quantifier": "all expressions of any depth, all operators, types and values", "why_tests_cant": "Type and value combinations multiply with nesting of the expression.", "anchors": ["libvast/src/expression_visitors.cpp: validator", "libvast/src/type.cpp: compatible, congruent", "libvast/src/expression.cpp: normalize_and_validate"]}
{"id": "C49", "title": "A restart restores complete partitions, and an orderly shutdown loses nothing", "statement": "After a restart at any point, the partitions that can be queried are exactly those listed in the state file that have a file, each with all of its events; with no write of the state file outstanding, every partition that is written survives; after an orderly shutdown every event that came in and was not erased is found again.", "quantifier": "all histories of imports, persist completions, erasures, shutdowns and crashes", "why_tests_cant": "Crash points between the writes of partition files and of the state file cannot be enumerated.", "anchors": ["libvast/src/system/index.cpp: load_from_disk, flush_to_disk, decomission_active_partition, exit handler", "libvast/src/system/partition.cpp: persist handler"]}
{"id": "C50", "title": "An erased partition is gone, and erasing touches nothing else", "statement": "Erasing a registered partition removes its synopsis, its registration and its file and leaves every other partition as it is; a partition that was erased is not queried again before a restart, and never again once its file is removed.", "quantifier": "all histories of imports, queries, erasures and restarts", "why_tests_cant": "Erasures race with persisting, queries and crashes.", "anchors": ["libvast/src/system/index.cpp: atom::erase handler", "libvast/src/system/partition.cpp: passive_partition erase handler"]}
{"id": "C51", "title": "Partitions do not exceed the configured size", "statement": "A partition holds at most the configured number of events, unless it holds a single table slice that alone exceeds it.", "quantifier": "all sequences of table slices of all sizes, all capacities", "why_tests_cant": "The rollover depends on the sizes of all slices so far.", "anchors": ["libvast/src/system/index.cpp: stream stage of index, create_active_partition"]}
{"id": "C52", "title": "WAH bitmaps hold exactly the bits appended", "statement": "After any sequence of appending single bits, runs, blocks and of flipping, a word-aligned hybrid bitmap has the size and the bits of the plain sequence with the same operations; its range, the boolean operators over it, counting and comparison follow those bits.", "quantifier": "all operation sequences of any length with runs of any size, all positions", "why_tests_cant": "Words, fills, full fills and the active word combine differently for every length modulo 63 and history.", "anchors": ["libvast/src/wah_bitmap.cpp: append_bit, append_bits, append_block, flip, merge_active_word, wah_bitmap_range", "libvast/vast/wah_bitmap.hpp: wah_bitmap", "libvast/vast/bitmap_algorithms.hpp: binary_eval, rank"]}
{"id": "C53", "title": "Arrow table slices read back what was written", "statement": "A builder for Arrow-encoded table slices accepts every row of nulls and values of the types of its columns, and the finished slice has those rows: each value, however deeply nested, reads back at its row and column. Appending a column to an index hands over exactly its values that are not null with the IDs of their rows. A value of another type is refused and changes nothing.", "quantifier": "all layouts with nested lists, maps, records and aliases, all sequences of rows and values", "why_tests_cant": "Offsets of nested columns depend on all rows before; types nest without bound.", "anchors": ["libvast/src/arrow_table_slice_builder.cpp: add_impl, column_builder, finish", "libvast/src/arrow_table_slice.cpp: at, append_column_to_index, value_at, decode"]}
{"id": "C54", "title": "Transforms change only what they name", "statement": "A slice of an event type that no transform names passes unchanged. Otherwise the transforms that name it run in their order, all of their steps in order; the result has the name, the number of rows and the IDs of the original. Deleting a column removes that column only, hashing appends a column whose text depends on the value of the row only and leaves the others, replacing sets one column to the value in every row, and any column that no step deletes or replaces keeps its name, type and values.", "quantifier": "all layouts, slices, lists of transforms and of steps, and digests", "why_tests_cant": "Steps compose over layouts that earlier steps have changed.", "anchors": ["libvast/src/transform.cpp: transform::apply, transformation_engine::apply", "libvast/src/transform_steps/delete.cpp", "libvast/src/transform_steps/hash.cpp", "libvast/src/transform_steps/replace.cpp"]}
{"id": "C55", "title": "Values written as text are read back as the same value", "statement": "Printing a value and parsing the text yields the value again, and consumes exactly the text, whatever bracket, comma, operator or connective follows; different values have different texts; all values can be printed.", "quantifier": "all values nested to any depth, all texts that may follow, all behaviours of the floating point unit, the clock and the C library", "why_tests_cant": "The parser tries sixteen alternatives in order at every level, and any earlier one may take a prefix of the text.", "anchors": ["libvast/vast/concept/parseable/vast/data.hpp: data_parser", "libvast/vast/concept/parseable/string/quoted_string.hpp", "libvast/vast/concept/parseable/vast/{time,address,subnet,si,integer}.hpp", "libvast/vast/concept/parseable/core", "libvast/vast/concept/printable/vast/data.hpp"]}
{"id": "C56", "title": "Queries mean what they say", "statement": "Reading the text of a query gives an expression that holds exactly if the query does: && binds more tightly than ||, parentheses group, ! negates what stands next to it, a value on its own asks for equality with something of its type, and a subnet also for addresses in it. Printing an expression and reading the text gives the same expression, and different expressions have different texts. Reading a text ends.", "quantifier": "all queries of predicates and values nested to any depth, all truth values of predicates, all field names, types and values they mention", "why_tests_cant": "Every operand is tried as a value, a type and a field in turn, and each of these may take a prefix of the other; chains and parentheses nest without bound.", "anchors": ["libvast/src/concept/parseable/vast/expression.cpp: make_expression_parser, to_expr, expand, make_predicate_parser", "libvast/src/concept/parseable/vast/type.cpp", "libvast/vast/concept/printable/vast/expression.hpp", "libvast/vast/concept/printable/vast/operator.hpp", "libvast/vast/concept/printable/vast/type.hpp"]}
{"id": "C57", "title": "Types and schemas written as text are read back", "statement": "Reading the text of a type gives the type, with references in place of the named types in it. Reading the text of a schema gives the same types, so a schema that is sent to another process arrives as it was.", "quantifier": "all types nested to any depth, all schemas, all orders a hash table may have", "why_tests_cant": "A schema is sent as text whenever an importer, a source or a client needs it; the text refers to types by name, in any order, to any depth.", "anchors": ["libvast/vast/concept/parseable/vast/schema.hpp: schema_parser, symbol_map_parser", "libvast/src/schema.cpp: serialize", "libvast/vast/concept/printable/vast/schema.hpp", "libvast/vast/concept/printable/vast/type.hpp", "libvast/src/concept/parseable/vast/type.cpp"]}
{"id": "C58", "title": "Definitions of types mean what they say", "statement": "A schema gives every defined name the type that its definition describes, with every name in it replaced by the type that name stands for: a definition of the same directory, or else one of an earlier directory; a definition may refer to the type of that name that it replaces. The order of the definitions makes no difference. A definition without a meaning (an unknown name, a cycle) is reported as an error and does not crash. Later directories replace types of earlier ones, and all others stay.", "quantifier": "all sets of definitions of any size and depth, all orders in which they are visited, all sequences of directories", "why_tests_cant": "The resolver visits definitions recursively in the order of a hash table; cycles and replaced names depend on what has been visited before.", "anchors": ["libvast/vast/concept/parseable/vast/schema.hpp: symbol_resolver", "libvast/src/schema.cpp: load_schema, schema::combine, schema::add"]}
{"id": "C59", "title": "Type expressions combine records field by field", "statement": "The sum of records has the columns of all operands and no others, at any depth, and is refused exactly if some field is in two of them with different contents. With a preference, the columns of one operand stay, and those of the other are added where the first has no field in their place; this never fails. Removing a field removes what stands at or below its path and nothing else; removing a field that does not exist is an error. The result has the name of the definition.", "quantifier": "all records nested to any depth with any number of fields, all chains of sums, all paths", "why_tests_cant": "Nested records are merged recursively at any depth, and one level may hide what lies below it.", "anchors": ["libvast/vast/concept/parseable/vast/schema.hpp: symbol_resolver::operator()(record_type)", "libvast/src/type.cpp: merge, priority_merge, remove_field"]}
{"id": "C60", "title": "Times are written and read by the Gregorian calendar", "statement": "The date printed for a time is the one found by counting days of the Gregorian calendar from the 1st of January 1970, forwards and backwards, and the parser's number of a day is the inverse of it. A printed time shows the hours, minutes, seconds and decimals of its day. Read again, in front of whatever may follow in a query, it is the same time; two times never have the same text. The same goes for durations and reals.", "quantifier": "all days of the years 0 to 65535, all times of 64 bits, and everything that may follow them in a query", "why_tests_cant": "The arithmetic of the calendar has special cases every 4, 100 and 400 years, and decimals go through floating point numbers, where rounding depends on every digit.", "anchors": ["libvast/vast/concept/printable/std/chrono.hpp: from_days, printer_registry time_point, duration", "libvast/vast/concept/parseable/vast/time.hpp: to_days, ymdhms_parser, duration_parser", "libvast/vast/concept/parseable/numeric/real.hpp: real_parser", "libvast/vast/concept/printable/numeric/real.hpp: real_printer"]}
{"id": "C61", "title": "The archive answers every request once and sends what its slices call for", "statement": "Every request to the archive is answered exactly once. It is answered with done only after all that the slices of its session call for was sent to its sink, and an error is only reported if the store failed or the query does not fit. A slice makes the archive send the requested events that satisfy the query, under their IDs if these are to be kept, or their number. Nothing else is sent, no assertion fails, and if sessions end then all requests are answered.", "quantifier": "all sequences of requests, of actors that go down and of answers of the store; all slices, ID sets and queries", "why_tests_cant": "Requests arrive while others are served, share a queue if their queries are equal, and may be cancelled at any moment; each order of messages is another program path.", "anchors": ["libvast/src/system/archive.cpp: archive, archive_state::next_session, archive_state::file_request", "libvast/vast/system/archive.hpp: archive_state", "libvast/vast/query.hpp: query"]}
{"id": "C62", "title": "Termination waits for all actors and keeps their order", "statement": "Termination of a list of actors succeeds only after each of them was told to exit or killed and has ended. In sequential mode an actor is told to exit only after all actors before it have ended; in parallel mode all are told at once. No other actor is affected, there is one answer, no assertion fails, the terminator never waits for anything but an actor that it has told to exit, and once all have ended success is reported.", "quantifier": "all lists of actors, with repetitions and empty handles, all moments at which actors end, all orders of messages and reminders, both modes", "why_tests_cant": "Actors end at any time, before, while and after they are told to, and reminders race with the messages about them.", "anchors": ["libvast/src/system/terminator.cpp: terminator", "libvast/vast/system/terminator.hpp: terminator_state", "libvast/vast/system/terminate.hpp: terminate"]}
{"id": "C63", "title": "The value of an option follows from the configuration files by one rule", "statement": "The last configuration file that gives an option a value determines it, and files that do not speak of the option do not change it. Lists given by several files are appended in order. A null value or a plain value in place of an enclosing section removes the option. Every option is found under the names of its sections joined by dots, options below caf also without that prefix, and no option appears that no file gives.", "quantifier": "all lists of configuration files, all nestings of sections, all option names and values", "why_tests_cant": "Files can be combined in any number and each option may be set, extended, removed or shadowed in any of them, at any depth.", "anchors": ["libvast/src/system/configuration.cpp: configuration::parse", "libvast/src/data.cpp: flatten, merge", "libvast/vast/detail/stable_map.hpp: stable_map_policy", "libvast/vast/detail/vector_map.hpp: vector_map"]}
{"id": "C64", "title": "Every line of a CSV file becomes one event", "statement": "If each line has a valid cell for each column, the import yields one event per line, in order, with the values that the cells stand for; empty cells are null. No event is lost or duplicated however the calls to the reader are cut by batch sizes, timeouts and input that stalls, no slice is empty or larger than asked for, no line is counted as invalid, the whole file is read if enough calls are made, and no more events are imported than the user asked for. A line that is not valid yields no event and does not affect others.", "quantifier": "all layouts, all files of any length, all cells, all sequences of calls with any limits, timeouts and stalls", "why_tests_cant": "Cells are added to the builder while the line is parsed, so each line depends on all that came before; cells are arbitrary text, and calls are interrupted at any line.", "anchors": ["libvast/src/format/csv.cpp: csv_parser_factory, container_parser_builder, make_csv_parser, reader::read_impl", "libvast/src/format/single_layout_reader.cpp: single_layout_reader::finish", "libvast/src/arrow_table_slice_builder.cpp: add_impl, finish", "libvast/src/system/source.cpp: source"]}
{"id": "C65", "title": "The lines of an input do not depend on how it arrives", "statement": "A reader of a pipe or socket gets exactly the non-empty lines of what is sent, in order and each once, whether they end in a line feed, a carriage return or both, and the rest behind the last of them; and it comes to an end. Pauses of the sender, which let the reader time out at any byte, change nothing.", "quantifier": "all texts, all ways in which the bytes arrive, with any number of timeouts between any two of them", "why_tests_cant": "A sender may pause between any two bytes, so there are exponentially many ways for the same bytes to arrive.", "anchors": ["libvast/vast/detail/absorb_line.hpp: absorb_line", "libvast/src/detail/line_range.cpp: line_range::next_impl, line_range::next_timeout, line_range::done", "libvast/src/detail/fdinbuf.cpp: fdinbuf::underflow"]}
{"id": "C66", "title": "Exploring finds the surroundings of each result, each event once", "statement": "Exploration asks for exactly the events in the time window around each result of the first query and with the same value of the chosen field. Every event so found is output once, however many windows it is in, and no more events than the user asked for are output. The exploration ends after all of its queries have ended and not before, and nothing is lost.", "quantifier": "all results, windows and limits, all slices found by any number of queries, in every order of messages", "why_tests_cant": "Windows overlap in arbitrary ways and their results arrive interleaved, and queries start, fail and end at any time.", "anchors": ["libvast/src/system/explorer.cpp: explorer, explorer_state::forward_results", "libvast/vast/system/explorer.hpp: explorer_state"]}
{"id": "C67", "title": "Sigma rules mean what they say", "statement": "A Sigma rule becomes a query that holds exactly for the events for which the rule does: a search holds if all of its fields do, each for one of its values or for all of them, with wildcards in strings; the condition combines searches by and, or, not and parentheses, where and binds stronger than or, and by one or all of the searches, of those with a common beginning of their names, or of the parts of a search.", "quantifier": "all rules, conditions of any depth with any white space, all values and wildcards, all truth values of the predicates", "why_tests_cant": "Conditions nest without bound and refer to searches by name, by pattern and by quantifier, so that what one name means depends on all other names of the rule.", "anchors": ["libvast/src/detail/sigma.cpp: parse_rule, parse_search_id, make_pattern, detection_parser, search_id_symbol_table", "libvast/vast/concept/parseable/string/symbol_table.hpp: symbol_table", "libvast/src/detail/string.cpp: split"]}
{"id": "C68", "title": "Exported comma-separated values say what the events are", "statement": "Whatever events are exported as CSV in whatever slices, a standard CSV reader finds in the file the first events up to the limit of the user, one line for each, in order, with the name of its type and all of its values, and the names of the columns wherever the type of events changes. Strings with quotes, commas and line breaks are kept, null differs from the empty string, and a file that was exported can be imported again without loss.", "quantifier": "all events and layouts, all ways to cut them into slices, all limits", "why_tests_cant": "Strings have arbitrary bytes, so quoting has to be right for every combination of them, and the header depends on the whole history of slices.", "anchors": ["libvast/src/format/csv.cpp: writer::write, render, reader::make_layout", "libvast/src/format/ostream_writer.cpp: write_buf", "libvast/src/system/sink.cpp: transforming_sink", "libvast/vast/detail/escapers.hpp: make_double_escaper"]}
{"id": "C69", "title": "Exported JSON is JSON, says what the events are, and can be imported again", "statement": "Each event is exported as one line that a standard JSON parser reads as an object with the fields of the event in order and their values, nested or flattened, whatever characters strings have. Importing the line yields the same event: integers, counts, strings, times, addresses, subnets, enumerations, lists and null are kept. Numbers that do not fit are refused, the order of members and members with other names do not matter, and the layout is found by the names of the fields.", "quantifier": "all layouts of any depth, all rows, all strings of bytes, all JSON objects, all sets of known layouts", "why_tests_cant": "Strings hold arbitrary bytes, records and lists nest without bound, and names with dots interact with nesting on both sides.", "anchors": ["libvast/vast/concept/printable/vast/json.hpp: json_printer", "libvast/vast/format/ostream_writer.hpp: print_record, print", "libvast/src/format/json.cpp: writer::write, convert, lookup, add", "libvast/vast/format/json/default_selector.hpp: default_selector"]}
{"id": "C70", "title": "Aging runs again and again, requests to age are answered, and counts are complete", "statement": "Once started with an aging query, the eraser runs it again and again, each time over all partitions that the index finds, with one run at a time; every request to run it at once is answered exactly once. A count ends, and the number that is printed is the sum of the matches in all partitions.", "quantifier": "all numbers of partitions and batch sizes, all interleavings of timers, requests, replies of the index and results of partitions, without bound on the number of runs", "why_tests_cant": "Messages of timers, users, index and supervisors interleave freely in each state over an unbounded time, and messages that arrive in a state without a handler are lost.", "anchors": ["libvast/src/system/query_processor.cpp: query_processor", "libvast/src/system/eraser.cpp: eraser_state::init, eraser_state::transition_to", "libvast/src/system/counter.cpp: counter_state", "libvast/src/system/count_command.cpp: count_command", "libvast/src/system/index.cpp: index", "libvast/src/system/query_supervisor.cpp: query_supervisor"]}
{"id": "C71", "title": "Packets become events of their flow, flows are cut off where configured, and both directions have one community identifier", "statement": "Importing a packet trace records each packet with its time, the addresses and ports of its headers and its bytes, in order and once. A packet is left out if and only if its flow has already had as many bytes as configured, and not more flows than configured are kept. Both directions of a flow, and an ICMP request and its reply, have the same community identifier, and different flows are hashed from different bytes. Exporting packets writes each once with its time and its bytes.", "quantifier": "all frames with and without VLAN tags, all IPv4 options and transports, all traces, timings and draws of the random generator, all configurations, all sequences of reads, all flows and all hash functions", "why_tests_cant": "Traces are unbounded, eviction is random and depends on the timing of packets, and a flow has its limit only together with all packets before it.", "anchors": ["plugins/pcap/main.cpp: reader::read_impl, decapsulate, update_flow, evict_inactive, shrink_to_max_size, writer::write", "libvast/vast/community_id.hpp: community_id_hash_append, compute", "libvast/src/icmp.cpp: dual", "libvast/src/flow.cpp: operator==", "libvast/src/format/single_layout_reader.cpp: finish"]}
{"id": "C72", "title": "Zeek logs become events, and exported logs say what the events are", "statement": "Importing logs in Zeek's format yields one event for each row, in order and once, with the layout of the header above it and the values that the cells say, whatever the sizes of batches and the timeouts; comments and rows with another number of cells change nothing. Exporting writes each event once, below a header with the names and types of its own layout, with cells that say its values; exported rows can be imported again without loss.", "quantifier": "all logs with any separators, headers, types, rows and comments, all numbers and sizes of reads and all timeouts, all sequences of slices with any layouts", "why_tests_cant": "Logs are unbounded, several logs follow each other in one input, and separators, placeholders and escapes interact with arbitrary bytes in values.", "anchors": ["libvast/src/format/zeek.cpp: reader::read_impl, reader::parse_header, parse_type, writer::write, print_header", "libvast/vast/format/ostream_writer.hpp: print_record, print", "libvast/vast/format/zeek.hpp: zeek_parser", "libvast/src/format/single_layout_reader.cpp: finish"]}
{"id": "C73", "title": "Each line of JSON becomes an event of its layout, or is counted", "statement": "Importing lines of JSON delivers, for each layout, the events of the lines that have it, in order and once, whatever the sizes of batches, the timeouts and the arrival of input; slices are neither empty nor larger than configured; a call that ends without waiting for input has delivered all events read so far. Each line that is no JSON object, cannot be converted or has no known layout is counted in exactly one report. With a selector by field, a line has the layout that its field names. Exported events of several layouts are imported again with their layouts.", "quantifier": "all sequences of lines, all selectors, layouts and conversions, all sizes, all sequences of reads, reports, stalls and timeouts, all orders of the table of builders", "why_tests_cant": "The input is unbounded, builders of many layouts fill and are flushed independently, and reports may be taken between any two reads.", "anchors": ["libvast/vast/format/json.hpp: reader::read_impl, reader::status", "libvast/src/format/multi_layout_reader.cpp: finish, builder", "libvast/vast/format/json/field_selector.hpp: field_selector", "libvast/src/format/json.cpp: add", "libvast/src/detail/string.cpp: split"]}
{"id": "C74", "title": "Pivoting asks once for each identifier of the results, and ends when all is delivered", "statement": "Pivoting from the results of a query to a type asks for exactly the identifiers in the connecting field of the results, each once, so that each event of the type with such an identifier is output once and no other. The queries mean what was meant when they are read by the node. Pivoting ends when, and only when, the first query and all queries for the target are done.", "quantifier": "all sequences of slices with any layouts and values, all interleavings with the answers of the node, failures and the ends of exporters, all targets", "why_tests_cant": "Slices, answers and ends of exporters interleave arbitrarily, and whether an identifier was asked for depends on all slices before.", "anchors": ["libvast/src/system/pivoter.cpp: pivoter, common_field", "libvast/vast/system/pivoter.hpp: pivoter_state", "libvast/src/table_slice_column.cpp: table_slice_column::make", "libvast/src/system/pivot_command.cpp: pivot_command", "libvast/src/type.cpp: record_type::find_suffix"]}
{"id": "C75", "title": "The registry knows the layouts of all events, and taxonomies are loaded from all files or not at all", "statement": "Across restarts the registry knows under each name the layouts of all slices that were imported, each once, the most recent first, so that a query about a concept asks for every field of the concept that an imported layout has, and for no other. A change of layout is reported, as compatible exactly if nothing was lost. Loading taxonomies takes the definitions of all files, in whatever order they are visited, or reports an error and changes nothing.", "quantifier": "all histories of starts, slices, loads, orderly stops and crashes, all layouts, all queries, all sets of files with any content", "why_tests_cant": "What is known depends on the whole history of imports and restarts, and the order of files in a directory is up to the file system.", "anchors": ["libvast/src/system/type_registry.cpp: type_registry, type_registry_state::insert, save_to_disk, load_from_disk, types", "libvast/src/taxonomies.cpp: convert, extract_concepts, extract_models, resolve", "libvast/vast/detail/stable_set.hpp: stable_set_policy", "libvast/src/io/save.cpp: save"]}
{"id": "C76", "title": "A saved file holds what was saved last", "statement": "A file that is saved with success holds exactly what was saved; if saving fails, or the process crashes at any point of it, the file holds what it held before. Other files do not change. Reading a file gives all of it or an error. The statistics say how many requests succeeded and failed, and how many bytes were transferred.", "quantifier": "all contents, all sequences of saves and reads of any files, all short reads and writes, interrupts and failures of system calls, all crash points", "why_tests_cant": "The operating system may cut short, interrupt or fail any call, and the process may stop between any two of them; a leftover of one save is met by a later one.", "anchors": ["libvast/src/io/save.cpp: save", "libvast/src/io/write.cpp: write", "libvast/src/io/read.cpp: read", "libvast/src/file.cpp: file::open, file::write, file::read, file::seek", "libvast/src/detail/posix.cpp: read, write, seek", "libvast/src/system/posix_filesystem.cpp: posix_filesystem"]}
{"id": "C77", "title": "A database directory has one owner, and a crash does not keep others out", "statement": "Of the nodes started on the same database directory, on one machine, at most one runs at any time: as long as a node owns the directory, the start of another is refused with an error. When the owner has stopped or was killed, the next start succeeds. After every start the lock file names the owner.", "quantifier": "all histories of starts, orderly stops and crashes of any number of processes, all process identifiers, all interleavings of the steps of a start", "why_tests_cant": "A race needs two starts at the same moment, and a stale file needs a crash at a certain point and process identifiers of certain lengths.", "anchors": ["libvast/src/detail/pid_file.cpp: acquire_pid_file", "libvast/src/system/spawn_node.cpp: spawn_node"]}
{"id": "C78", "title": "Every line of Syslog becomes one event with what the message says", "statement": "On import of Syslog, every line that is not empty becomes exactly one event: a message of RFC 5424 becomes an event with its facility, severity, version, time, host, application, process, message identifier and text, any other line an event with the line as it is. Events of the same layout are in the order of their lines, and however the import is cut into batches and interrupted by timeouts, none is lost or doubled.", "quantifier": "all lines of bytes, all messages, all sizes of slices and batches, all schedules of timeouts and stalls", "why_tests_cant": "Messages nest optional parts, escapes and limits on lengths, and the import may be interrupted before any line.", "anchors": ["libvast/vast/format/syslog.hpp: header_parser, structured_data_parser, message_content_parser, message_parser", "libvast/src/format/syslog.cpp: reader::read_impl", "libvast/src/format/multi_layout_reader.cpp: finish, builder"]}
{"id": "C79", "title": "An export writes the first events up to its limit", "statement": "An export with a limit of n events writes exactly the first n events it is given, in order and after the configured transformations, and then ends; without a limit it writes all. If the writer fails, the export ends with an error and what was written is a prefix. A limit set later is kept if it is not reached yet.", "quantifier": "all sequences of slices of any sizes, all transformations, all limits, all points at which the writer fails or the limit changes", "why_tests_cant": "Slices of any size meet the limit at any row, and failures and new limits come between any two of them.", "anchors": ["libvast/src/system/sink.cpp: transforming_sink, sink"]}
{"id": "C80", "title": "A node opens exactly the database directories of its own version", "statement": "A node starts on a database directory if the version file in it names the version of this node, and refuses all others without changing them. A new directory gets the version of the node that makes it, and all later starts of that version succeed.", "quantifier": "all contents of the version file, all sequences of starts, all points at which a start is killed", "why_tests_cant": "The file may have any content, and a node may be killed after any byte of it.", "anchors": ["libvast/src/db_version.cpp: read_db_version, initialize_db_version", "libvast/src/system/spawn_node.cpp: spawn_node"]}
{"id": "C81", "title": "Every metric reaches the outputs that are switched on, once and in order", "statement": "Every finite metric that is sent to the accountant while it records internally is in exactly one row of the slices it makes, in order and under the name its sender announced last; slices have the configured size, and when the accountant ends no row is left behind. A file or socket gets exactly the metrics sent while it is switched on. A new configuration takes effect for the metrics after it.", "quantifier": "all histories of announcements, ends of actors, metrics, requests for slices and configurations, all outcomes of opening outputs, all sizes of slices", "why_tests_cant": "Configurations and ends of actors come between any two metrics, and slices are taken at any time.", "anchors": ["libvast/src/system/accountant.cpp: accountant_state_impl, accountant", "libvast/vast/accountant/config.hpp: accountant_config"]}
{"id": "C82", "title": "A label names one component of a node, for as long as it is there", "statement": "A label given to the node finds exactly the component that was registered under it and has neither been killed nor ended since; no registration takes a label from another component. A type finds all components of it, each once. Labels that the node makes are different from each other. There is at most one component of each type that must be single, and the node ends when one it cannot do without has ended.", "quantifier": "all histories of components that are asked for, started late or in vain, put by other processes, killed and ended, all labels and types", "why_tests_cant": "Components start and end in any order between a request and its completion, and users may choose any label.", "anchors": ["libvast/src/system/component_registry.cpp: component_registry", "libvast/src/system/node.cpp: register_component, deregister_component, generate_label, node_state::spawn_command, kill_command, node"]}
