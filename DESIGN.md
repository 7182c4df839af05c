# Formal model of tenzir/vast in Rocq (Coq 8.16.1)

This file says, for each property in `properties.jsonl`, what is modelled, how
it is proved (or why not), and what has to be trusted. The state of each
property (proved / partial / refuted parts) is in `MANIFEST.json`.

## Layout

* `rocq/theories/*Model.v` - computable Gallina functions that follow the C++
  functions one by one. Every definition cites file and lines in /repo and says
  where it simplifies.
* `rocq/theories/*Spec.v` (or a spec section in the proof file) - independent
  specifications: lists of booleans, finite maps as functions, sets as
  predicates. Specifications do not call model helpers.
* `rocq/theories/*Proofs.v` - lemmas, invariants, refinement proofs.
* `rocq/theories/Props*.v` - the property theorems, named `Cxx_...`, each
  followed by `Print Assumptions`, each with a concrete example beside it that
  meets the hypotheses.
* `seeded/LOG.jsonl` - mutation attempts on a scratch copy.

## Conventions

* Machine words are `N` with explicit wrap (`mod 2^64`); lengths, indices and
  fuel are `nat` or `N`. Undefined behaviour or a failed VAST_ASSERT is a
  distinct outcome (`None` / `Ub`), never silently a normal value.
* Actors become transition systems: a state record and a `step` function or an
  inductive `step` relation with one case per message handler; CAF delivers
  each message once, runs one handler at a time, and keeps the order of messages
  between two actors. Theorems quantify over all message histories.
* A property that is false of the faithful model is recorded as a theorem
  `..._refuted` with a witness; the strongest true variant is proved beside it.
  A theorem that covers only part of its property ends in `_partial`.

## Trusted base

* Coq's kernel, version 8.16.1 (and `coqchk`, which rechecks the compiled
  files).
* Axioms: there is no axiom of our own. `Print Assumptions` prints "Closed
  under the global context" for every property theorem but two; each
  `Props*.v` ends with the command for the tuple of all its theorems. The two
  are `C60_near`, which bounds rounding errors over the real numbers of the
  standard library, and `C66_text`, which follows from it. They depend on `ClassicalDedekindReals.sig_not_dec`,
  `ClassicalDedekindReals.sig_forall_dec`, `Classical_Prop.classic` and
  `FunctionalExtensionality.functional_extensionality_dep`, all from the
  standard library. Flocq is used in the proof, but not in the statements.
* Floating point: `double` is IEEE 754 binary64 with rounding to nearest even,
  as specified by `Coq.Floats.SpecFloat`. `std::pow` of ten is taken to be
  exact up to twenty digits, and `log10` accurate enough to tell the number of
  digits.
* The translation from C++ to Gallina is by hand. Nothing checks it except
  reading: every definition names the lines it was read from.
* CAF 0.17.6: an actor handles one message at a time, every message is
  delivered once, and messages between two actors keep their order. Where a
  model is more liberal (any order of messages), it says so.
* The C++ library: containers, sorting and `std::` algorithms do what the
  standard says. The models of `std::vector`, `std::map` and `std::list` are
  lists, association lists and lists of nodes with identities.
* Hash functions (xxhash) are arbitrary functions; UUIDs are fresh numbers.

## What is modelled

| Code (under libvast/) | Model |
|------|-------|
| vast/word.hpp, vast/bits.hpp | `WordModel` |
| vast/ewah_bitmap.hpp, src/ewah_bitmap.cpp, vast/bitmap_base.hpp | `EwahModel` |
| vast/bitmap_algorithms.hpp, src/ids.cpp (make_ids) | `BitmapAlgoModel`, `BitmapOps` |
| vast/bitvector.hpp, src/null_bitmap.cpp | `BitvectorModel` |
| vast/wah_bitmap.hpp, src/wah_bitmap.cpp | `WahModel` |
| src/arrow_table_slice_builder.cpp, src/arrow_table_slice.cpp (the Arrow library as sequences of slots) | `ArrowModel` |
| src/transform.cpp, src/transform_steps/{delete,hash,replace}.cpp (the digest as a parameter) | `TransformModel` |
| concept/parseable/{core,numeric,string}, concept/parseable/vast/{data,time,address,subnet,si,integer,identifier}.hpp, concept/printable/vast/{data,address,subnet}.hpp (floating point, the clock, inet_pton and inet_ntop as parameters) | `LiteralModel` |
| src/system/archive.cpp, system/archive.hpp, query.hpp (without metrics, status and the stream of new slices) | `ArchiveModel` |
| src/system/terminator.cpp, system/terminate.hpp (monitors of CAF included) | `TerminatorModel` |
| src/system/configuration.cpp (combining the files), src/data.cpp: flatten, merge, detail/stable_map.hpp, detail/vector_map.hpp | `ConfigModel` |
| src/format/csv.cpp (parsers of cells, reader loop), src/format/single_layout_reader.cpp, src/arrow_table_slice_builder.cpp: add_impl, finish, src/system/source.cpp (the loop of calls); not the header | `CsvModel` |
| src/format/csv.cpp (writer, make_layout without patterns in names), src/format/ostream_writer.cpp, src/system/sink.cpp: transforming_sink (without transforms, reports and flushing) | `CsvWriterModel` |
| vast/concept/printable/vast/json.hpp (one line), vast/format/ostream_writer.hpp: print_record, src/format/json.cpp (numbers inside of JSON strings are a parameter; simdjson is replaced by a decoder), vast/format/json/default_selector.hpp | `JsonModel` |
| plugins/pcap/main.cpp (reader and writer without libpcap), vast/community_id.hpp, src/flow.cpp, src/icmp.cpp, src/format/single_layout_reader.cpp | `PcapModel` |
| src/format/zeek.cpp (reader and writer), vast/format/zeek.hpp (zeek_parser), vast/format/ostream_writer.hpp (print, print_record), src/format/single_layout_reader.cpp | `ZeekModel` |
| vast/format/json.hpp (read_impl, status), src/format/multi_layout_reader.cpp, vast/format/json/field_selector.hpp | `JsonReaderModel` (builders that fail left out) |
| src/system/pivoter.cpp, src/table_slice_column.cpp (make) | `PivoterModel` (names of layouts and trees of fields; exporters and the node are the environment) |
| src/system/type_registry.cpp (without telemetry and status), src/taxonomies.cpp (extract_models) | `TypeRegistryModel` (serialization by CAF taken to be faithful) |
| src/io/save.cpp, write.cpp, read.cpp, src/file.cpp (open, read, write, seek), src/detail/posix.cpp:363-418, src/system/posix_filesystem.cpp (write, read) | `FileModel` (system calls as outcomes given from outside; a crash of the process at any of them, none of the operating system) |
| src/detail/pid_file.cpp, src/system/spawn_node.cpp:75-101 | `PidFileModel` (the look at the file and the locked write are one step each; system calls do not fail; process identifiers are unsigned) |
| vast/format/syslog.hpp, src/format/syslog.cpp:97-166 | `SyslogModel` (the parser of times is a parameter; structured data is recognized and dropped as in the code; replaced layouts are left out) |
| src/system/sink.cpp:47-123, src/db_version.cpp:56-106, src/system/spawn_node.cpp:59-69 | `SinkModel` (transformations are a parameter; the writer fails where the environment says; reports, flushes and status are left out) |
| src/system/accountant.cpp (without status, heartbeats and times), vast/accountant/config.hpp | `AccountantModel` (values are abstract, finite or not; which outputs can be opened is up to the environment; lines are sent whole and in order) |
| src/system/component_registry.cpp, src/system/node.cpp:100-117, 190-219, 334-362, 465-569, 587-599, 738-754 | `NodeModel` (entries in order of addition instead of a hash map; a request and its completion are two steps; shutdown is left out) |
| src/system/eraser.cpp, src/system/counter.cpp, src/system/count_command.cpp, src/system/query_processor.cpp with what the index sends | `AgingModel` |
| vast/detail/absorb_line.hpp, src/detail/line_range.cpp: next_impl, next_timeout, done, src/detail/fdinbuf.cpp: underflow (without errors of poll and read) | `LineModel` |
| src/system/explorer.cpp (exporters and node as environment) | `ExplorerModel` |
| src/detail/sigma.cpp, parseable/string/symbol_table.hpp, split in src/detail/string.cpp (regular expressions of names: words and stars) | `SigmaModel` |
| concept/printable/std/chrono.hpp, concept/printable/numeric, concept/parseable/vast/time.hpp (to_days, the arithmetic), concept/parseable/numeric/real.hpp (the arithmetic) | `CalendarModel` |
| src/concept/parseable/vast/{expression,type}.cpp, concept/printable/vast/{expression,operator,type}.hpp | `SyntaxModel` |
| concept/parseable/vast/schema.hpp, concept/printable/vast/schema.hpp, src/schema.cpp (add, find, merge, combine, serialize, load_schema over parsed files) | `SchemaModel` |
| vast/coder.hpp, vast/base.hpp | `CoderModel` |
| vast/detail/order.hpp, vast/binner.hpp | `OrderModel` |
| vast/value_index.hpp, src/value_index.cpp, vast/index/container_lookup.hpp | `ValueIndexModel` |
| vast/bitmap_index.hpp, vast/index/arithmetic_index.hpp | `ArithIndexModel` |
| src/index/address_index.cpp, src/index/subnet_index.cpp | `AddressIndexModel` |
| src/index/string_index.cpp, src/index/enumeration_index.cpp | `StringIndexModel` |
| vast/index/hash_index.hpp | `HashIndexModel` |
| src/index/list_index.cpp | `ListIndexModel` |
| vast/bloom_filter.hpp, vast/hasher.hpp | `BloomModel` |
| src/synopsis.cpp, src/synopsis_factory.cpp, the time, bool, string, address and buffered synopses | `SynopsisModel` |
| src/partition_synopsis.cpp, src/system/meta_index.cpp, vast/qualified_record_field.hpp | `MetaIndexModel` |
| src/address.cpp, src/subnet.cpp | `AddressModel` |
| src/operator.cpp | `OperatorModel` |
| src/data.cpp, src/view.cpp (comparison and evaluation) | `DataModel` |
| src/type.cpp (trees, records, offsets, congruence, checks) | `TypeModel` |
| src/expression.cpp, src/expression_visitors.cpp | `ExpressionModel` |
| src/table_slice.cpp, src/ids.cpp (select, truncate, split, filter, count) | `TableSliceModel` |
| src/msgpack.cpp, vast/msgpack_builder.hpp, src/msgpack_table_slice.cpp and its builder | `MsgpackModel` |
| src/system/evaluator.cpp | `EvaluatorModel` |
| src/system/importer.cpp (IDs) | `ImporterModel` |
| vast/detail/range_map.hpp | `RangeMapModel` |
| vast/detail/set_operations.hpp | `SetOpsModel` |
| vast/detail/lru_cache.hpp, flat_lru_cache.hpp, cache.hpp | `LruModel` |
| src/segment_store.cpp, src/segment.cpp, src/segment_builder.cpp | `SegmentStoreModel` |
| src/system/local_segment_store.cpp | `LocalStoreModel` |
| src/system/index.cpp (queries), src/system/query_supervisor.cpp, src/system/query_processor.cpp | `QueryModel` |
| src/system/index.cpp (life of partitions), src/system/partition.cpp | `IndexModel` |
| src/system/exporter.cpp | `ExporterModel` |
| src/system/disk_monitor.cpp | `DiskMonitorModel` |
| src/taxonomies.cpp | `TaxonomyModel` |
| src/detail/base64.cpp, vast/detail/varbyte.hpp, vast/detail/escapers.hpp, vast/detail/coding.hpp, src/detail/string.cpp | `Base64Model`, `VarbyteModel`, `EscapeModel` |

Not modelled: CAF itself (scheduling, streaming back-pressure, timeouts),
FlatBuffers encodings and the memory layout of Arrow arrays, parsers and
printers of events, import and export formats, plugins, the
configuration, file system errors except where a model names them, failing
memory allocation, logging, status reporting and metrics, C++ exceptions,
locales, and wrap-around of 64-bit counters where a definition says that it
uses unbounded numbers.

## How each property is proved

The state of each claim, and what of it is refuted, is in `MANIFEST.json`. All
theorems of a property carry its number.

| Id | Files | Proof |
|----|-------|-------|
| C01 | `Ewah*`, `PropsEwah` | refinement of marker blocks to `list bool` by an invariant on the marker chain; induction over operation lists |
| C02 | `BitmapAlgo*`, `PropsBitmapOps` | loop invariant: output so far and the combination of the rests; zero padding |
| C03 | `BitmapAlgoProofs`, `BitmapSelectProofs`, `PropsBitmapOps` | induction over bit sequences, word lemmas |
| C04 | `Bitvector*`, `PropsBitvector` | invariant: whole blocks and a prefix of one more; exact content of the range by induction over blocks |
| C05 | `BitmapAlgo*`, `PropsBitmapOps` | induction over ranges |
| C06 | `Coder*` | coders over an abstract bitmap algebra, instantiated with the EWAH model; invariant relating bitmaps to the list of values |
| C07 | `CoderModel`, `MultiLevelProofs`, `PropsCoder` | mixed radix arithmetic, induction over digits |
| C08 | `Order*` | arithmetic on bit patterns with wrap-around |
| C09 | `ArithIndex*`, `ValueIndex*` | composition of C06 to C08 with the invariants of the value index |
| C10 | `ValueIndex*` | the same invariants |
| C11 | `AddressIndex*`, `SubnetIndexProofs` | one coder per byte, prefix lemmas |
| C12 | `StringIndex*` | one coder per position; truncation characterised exactly |
| C13 | `HashIndex*` | invariant: digests of present values are distinct |
| C14 | `ListIndexModel`, `PropsListIndex` | any sound element index per position |
| C15 | `Bloom*` | induction over insertions |
| C16 | `Synopsis*` | invariant per kind of synopsis; exact lookups |
| C17 | `MetaIndex*`, `MetaLookupProofs` | induction over expressions; set operations of C39 |
| C18 | `DataModel`, `OperatorModel`, `PropsData` | case analysis, nested induction over data |
| C19 | `Expression*` | nested induction over expression trees |
| C20 | `TableSlice*`, `TailorProofs` | induction over selected rows |
| C21 | `Expression*` | induction over expressions |
| C22 | `Evaluator*` | invariant over all interleavings of responses |
| C23 | `Importer*` | invariant: IDs handed out are below the persisted end, with crash steps |
| C24 | `RangeMap*` | refinement to a function on points |
| C25 | `Lru*` | refinement to a list ordered by use; validity of iterators |
| C26, C27 | `SegmentStore*` | refinement to a map of rows; a crash after any prefix of the file operations |
| C28, C30 | `Query*` | invariants of the message-passing system, termination by a measure |
| C29, C49, C50, C51 | `Index*`, `PropsPartitions` | invariants over all interleavings of index, partitions, meta index and files, including restarts |
| C31 | `Exporter*` | invariant over message histories |
| C32 | `LocalStore*` | invariant of builder, segment and file; files exposed to restarts |
| C33 | `DiskMonitor*` | transition system of monitor, index and directory |
| C34 | `Varbyte*` | strong induction on the value |
| C35 | `Base64*` | bit sequences of RFC 4648, steps of three bytes |
| C36 | `Escape*` | induction over strings |
| C37 | `Msgpack*` | nested induction over values; skipping |
| C38 | `Address*` | bit-level lemmas |
| C39 | `SetOps*` | induction over sorted lists |
| C40 | `Taxonomy*` | reachability in the reference graph, induction over expressions |
| C41 | `TableSlice*`, `SelProofs` | induction over rows |
| C42 | `Expression*`, `Evaluator*` | induction over expressions |
| C43, C44 | `Type*`, `PropsType` | nested induction over types |
| C46, C47, C48 | `RecordProofs`, `PropsRecord` | nested induction over record types; case analysis |
| C45 | `ExtractorProofs`, `PropsExtractor` | suffix matching on flattened names |
| C52 | `Wah*` | invariant: full words or fills and a prefix of the active word; range by induction over words |
| C53 | `Arrow*` | arrays belong to a type (induction over types); every added value is read back and no earlier slot changes |
| C54 | `Transform*` | slices whose schema fits the layout stay so under every step; where a column is after a step follows from what the step names; induction over steps and transforms |
| C55 | `Literal*` | combinators as functions on texts; for each alternative of the grammar, which texts it refuses; induction over the value with the text that follows as parameter |
| C56 | `Syntax*`, `TypeTextProofs` | a query is a tree with its own text and truth value; reading its text gives the tree's expression by induction, over lemmas saying which alternatives of an operand refuse a text; texts on which the recursion exceeds every bound |
| C57 | `SchemaTextProofs`, `TypeTextProofs`, `PropsSchema` | reading a definition gives its type with references; every type of the schema is what its definition means, by induction over the size of types; then C58 |
| C58 | `Schema*` | the meaning of a name is an inductive relation; the resolver's state is invariant under nested resolution (names put aside, not yet visited, resolved); induction over derivations, over which no cycle passes |
| C59 | `TypeModel`, `SchemaModel`, `AlgebraProofs`, `PropsAlgebra` | records as trees of columns; one level of fields by induction over the right operand's fields, then induction over types (merging) or over the path (conflicts, removal) |
| C60 | `Calendar*`, `FloatIntProofs`, `FloatProofs` | the years of an era and the days of a year by computation in the kernel, all others by periodicity; the grammar of times on printed texts; exact arithmetic on whole seconds, decimals by error bounds on four rounded operations |
| C61 | `Archive*` | an invariant over all reachable states, by induction over the messages handled; the log of the actor is compared with the messages that its slices call for; what a slice calls for from C20 and C41 |
| C62 | `Terminator*` | an invariant over all reachable states: what remains is the request without actors that have ended, and each monitor or DOWN message belongs to an actor that remains |
| C63 | `Config*` | how a file speaks about a path is a function of its own; merging by induction over the path with the limit threaded along; flattening is the list of paths with joined names, which are distinct as names have no dots |
| C64 | `Csv*` | what a cell stands for is a relation of its own; each kind of cell is parsed up to the next comma; a line by induction over the columns with the builder as an accumulator; the loop by induction over the lines, for every oracle of timeouts |
| C65 | `Line*` | input as bytes and timeouts; the lines still to come as an invariant of the reader, whatever state it is in; a measure shows that it ends |
| C66 | `Explorer*` | first occurrences as specification; an invariant over all messages relates what was sent to what has arrived; the bounds in the text by C60 |
| C67 | `Sigma*` | conditions and searches as trees with their texts and truth values; the parser reads every text of a tree, by mutual induction over how it is written; wildcards and their regular expressions as two relations |
| C68 | `CsvWriter*` | a decoder for RFC 4180 is the specification; fields, lines and files are decoded by induction; the sink by induction over slices with the limit as an accumulator; the import composes with C64 and C60 |
| C69 | `Json*` | a decoder for RFC 8259 is the specification; strings, numbers, arrays and objects are decoded by induction over values and layouts; lookups by induction over paths; the choice of layouts by permutations of names |
| C70 | `Aging*` | invariants over all sequences of messages; the number of messages between two runs is bounded by a rank; sums over inputs and outputs are conserved |
| C71 | `Pcap*` | frames are built by a separate specification and parsed by computation on places; invariants of the flow table over all traces (bytes never exceed what the flow has had; equal while nothing is evicted); induction over the input for slices; community identifiers by symmetry and injectivity of the hashed bytes |
| C72 | `Zeek*` | a separate specification of logs (header, rows, cells, comments) and induction over it for any schedule of reads, with progress by the number of lines; for the export a specification that splits the file into sections, and an invariant over the slices; the composition of both for reimport |
| C73 | `JsonReader*` | a separate specification of what lines say (a relation over the decoder, the selector and the conversion); an invariant over lines, calls and reports: per layout, what was delivered and what is held back are what the consumed lines say; any permutation for the order of the table; progress by the number of lines; composition with C69 for reimport |
| C74 | `Pivoter*` | an actor and its environment (node, exporters) as a transition system; invariants over all schedules: identifiers asked for are those that arrived, without repetition; counters equal open requests and exporters; composition with C56 for the text of queries |
| C75 | `TypeRegistry*` | the actor with its file as a state machine; refinement to plain histories of layouts (recency order); composition with C40 for queries about concepts; loading as a fold over all elements of all files, invariant under permutation |
| C76 | `File*` | system calls with outcomes chosen by the environment; exact content of the temporary file by induction on outcomes; histories refined to a plain map |
| C77 | `PidFile*` | interleavings of processes as lists of events; invariant that the file holds the text of the only owner; witnesses for overlapping starts and lengths that differ |
| C78 | `Syslog*` | parsers as functions on bytes; round trip with a printer of RFC 5424 messages and inversion of every parser; loop by induction on the lines |
| C79 | `Sink*` | invariant that the written events are a prefix of the offered ones and counted right |
| C80 | `Sink*` | characterization of the accepted files; induction on the starts |
| C81 | `Accountant*` | invariant over all histories: rows sent, waiting and being built against the metrics of the history; lines against the metrics while the output is on |
| C82 | `Node*` | refinement of the registry to a table that follows the answers; invariants on labels and counters |

Not expressible here: floating point rounding inside the CAF statistics, the
randomness of UUIDs, and wall-clock behaviour (timers), which have no
deterministic semantics in the source.
