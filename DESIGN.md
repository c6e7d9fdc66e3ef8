# Formal model of cnosdb: design

The properties are listed in `properties.jsonl` (C01, C02, ...). This file says, for each of them, what part of
`/repo` is modelled in Rocq/Coq 8.16.1, how the property is proved, and what the result rests on.
`MANIFEST.json` maps each property to the exact theorem names.

## Layout

`rocq/theories/` is flat. Each area `X` has

* `XModel.v`  - executable Gallina definitions; every definition cites the file and lines of `/repo` it models;
* `XSpec.v`   - the specification, written without the model's helpers (present when it is more than a line);
* `XProofs.v` - lemmas;
* `XProps.v`  - only the property theorems (`exact lemma`), the non-vacuity `Example`s beside them, and
  `Print Assumptions` below each.

Theorem names start with the property id (`C06_integer_roundtrip`). A name ending in `_partial` proves part of the
property (the comment above it says what is missing). A name ending in `_refuted` proves that the faithful model
violates the property and exhibits the witness; the comment traces the witness through the code.

## Conventions

* 64-bit integers are `Z` (or `N`) with explicit wrap (`mod 2^64`) where the code wraps. The release profile of the
  workspace has `overflow-checks = false`, so plain `+`/`-` on integers wrap in the shipped build; where that matters
  the model wraps.
* `Result`/`Option` stay data. A Rust panic is an explicit error value.
* Loops are structural recursion or carry fuel; running out of fuel is a separate error value that the theorems
  exclude.
* External components (LMDB, skiplist, snappy/zstd/pco, DataFusion expression evaluation, hash functions, the clock)
  are section variables or parameters of the model, universally quantified in the theorem, with the assumed behaviour
  written in the statement.

## Plan per property

| id | modelled | proof |
|----|----------|-------|
| C01 | `TimeRange`, `TimeRanges` (BTreeMap as sorted list) over i64 | denotation as a set of instants; induction over additions |
| C02 | delete visitor (flag/tag/time stacks), `ColumnDomains`, time-range extraction | refuted for interleaved conjuncts; proved for the shapes on which it is right |
| C03 | query visitor (domain stack) | refuted (operator inside a comparison); proved for expressions without such operands by induction on the tree |
| C04 | `Marker`, `Range`, `Domain`, `EqutableValueSet` over an ordered carrier | refuted for coinciding endpoints; proved when endpoints do not clash |
| C05 | `timestamp_convert` on the delete path | refuted; proved for bounds that are multiples of the unit |
| C06 | zigzag, delta, RLE, simple8b, byte layout, null bitmap | round trip for all sequences |
| C07 | delta-timestamp codec | round trip for non-null columns; refuted for first-row null |
| C08 | boolean bit-pack | round trip |
| C09 | gorilla XOR codec at bit level | round trip, rejection of the sentinel |
| C10 | simple8b | round trip and totality below 2^60, rejection otherwise |
| C11 | `SeriesData` groups, skiplist order, dedup iterator | refinement to last-write-wins map; refuted for the orders on which it fails |
| C12 | memcache delete | exact set of surviving rows |
| C13 | record writer/reader at byte level, CRC as an arbitrary function | read-back of all records; refuted for an empty last record |
| C14 | same, with torn tails | all crash offsets of the last append; refuted for append after a torn header |
| C15 | raft entry storage over files and cache | refinement to list-with-offset |
| C16 | same | refuted + proved when the cache is not emptied |
| C17 | recovery | refuted for unapplied entries; applied entries survive |
| C18 | ts index forward direction | invariant by induction over operations |
| C19 | inverted index keys and queries | refuted for separators in names; proved for separator-free names |
| C20 | forward key encoding | injective for components under 65536 bytes; refuted beyond |
| C21 | loser tree, batch builder | refinement to stable merge + last-non-null |
| C22 | write/flush/compact/query engine model with file ids | refuted; proved under the id order condition |
| C23 | filter-then-merge pipeline | refuted; proved for time/tag-only predicates |
| C24 | `group_overlapping_segments` | partition theorem |
| C25 | compaction merge of blocks | content preserved |
| C26 | summary log, version edits, rewrite | replay = live version for every history and crash point |
| C27 | tombstone cache and record format | exact union |
| C28 | delete against in-flight flush/compaction as a transition system | refuted; proved for quiescent deletes |
| C29 | bloom filter over arbitrary hash functions | no false negatives |
| C30 | rate bucket with clock as input | budget bound by induction over requests |
| C31 | circular buffer | refinement to bounded FIFO map |
| C32 | memory pool atomics | invariant over all interleavings of atomic steps |
| C33 | `get_time_range` | cover/duration/disjointness; refuted at i64::MAX |
| C34 | bucket lookup and query mapping, allocation | cover, totality |
| C35 | privilege lattice and grants | order laws; refuted for grants that downgrade |
| C36 | metadata drop commands over the key space | refuted for users/roles/databases; proved parts |
| C37 | metadata apply with environment oracle | refuted; proved for the deterministic commands |
| C38 | watch log ring | no lost change |
| C39 | line protocol scanner (byte by byte state machine), escaping, sort/dedup of tags and fields | render/parse round trip by scanning lemmas per state; refuted: escaped first characters, backslashes in names, panics, glued lines |
| C40 | `unite_id`/`split_id` | bijection |
| C41 | time window assignment | exact set of windows |
| C42 | `timestamp_convert`, `CnosDuration` | algebra |
| C43 | log store adaptor | contract lemmas |
| C44 | page layout, bitmap, codec dispatch, string framing; compressors and CRC as parameters | round trip, from the codec round trips |
| C45 | snapshot: renumbered files, no tombstones; reads as in C24 | equal answers when files are listed in id order and hide nothing; refuted otherwise |
| C46 | id counter, buckets, replica sets and vnodes in the metadata state machine; reservation discipline of clients as a recursive predicate on histories | invariant: every stored or reserved id is below the counter and owned once, over all histories |
| C47 | all metadata commands; a specification of the keys each may touch and of what it stores | frame theorem per command; isolation of tenants by uniqueness of key paths; refused = unchanged; refuted for DROP USER across clusters |
| C48 | versions of tables, the background task mark | monotone version while the table is stored; lock invariant over histories |
| C49 | accumulators of FIRST, LAST, MODE, INCREASE, GAUGE_AGG and of the data quality functions; a two-stage plan as a relation | invariants of accumulators over the rows seen so far, composed over partitions; refuted: nulls in FIRST/LAST, INCREASE over partitions, data quality over batches |
| C50 | SAMPLE with random draws as a relation | sub-multiset invariant, size bounds; refuted: too many, too few rows, rows that can never be drawn |
| C51 | STATE_AGG's collection, sort, durations and periods; DURATION_IN, STATE_AT | stretches between adjacent rows as disjoint intervals, counted instant by instant; refuted for a single row |
| C52 | callbacks of the replicated log's storage, flush, restart of a vnode and of the metadata service, engine as a parameter | invariant over all histories: files are a prefix state, the log holds the entries between; refuted for the metadata service and within snapshot installation |
| C53 | the key strings, the ordered map, setters, clear_memberships, del_group, all_nodes_summary, get_snapshot_membership | refinement to one record per group, by induction over histories; key strings proved injective and prefix-free |
| C54 | pick_level, pick_files, advise_out_level, the delta picker, the compacting marks, ends of compactions, restart | loop invariants for the pickers; invariant over histories (files of running compactions are distinct and marked); counterexamples for the unmarked branch and for failed compactions |
| C55 | TsmWriter (write_pages, write_raw, finish, update_file_meta_data), TsmReader (open, read_series_pages, read_datablock_raw); bincode, compression, crc and bloom filter as parameters | invariant over the writes (slices of the output), layout lemma for finish and open; counterexamples for compressed metadata in a tag update and a crash in it |
| C56 | line_to_batches with MutableBatch, from_fb_column, build_series_key, point_to_row_data, build_row_data, build_write_group (lax, strict, replay); flatbuffers and the series index as parameters | column invariant (each column holds the cell of each row), placement by id, permutation of rows to groups; counterexamples for a name used as tag and field, strict mode and replay after a rename |
| C57 | check_field_type_or_else_add, add/drop/rename column, planner and executor of ALTER TABLE, the metadata's version check; histories with caches of any age | invariant over histories (versions, fresh ids, later schemas agree with earlier ones), then combined with C56; counterexamples for a refused writer and for two ADD COLUMNs |
| C58 | the compaction of C25 with columns: schema versions of files, the choice of the target columns, alignment by id, the version written in the footer by flushes and compactions | refinement: seen through any columns U the run is a run of CompactModel on the aligned rows, so C25's series lemma applies; counterexamples for the version a flush and a compaction write |
| C59 | one chunk through ColumnGroupReader, filter_column_groups, CombinedRecordBatchStream, reassign_predicate_columns, DataFilter and SchemaAlignmenter; operators and pruning as parameters | layout lemma (stream columns and values agree by id), rewriting weakens positive predicates and keeps complete conjuncts; counterexamples for chunks of mixed columns, reused names and AND below another operator |
| C60 | Model of the trigger loop: watermark, offsets, state stores by partition, restore/save/expire, commit, restart from the saved watermark. Invariant over histories (running or freshly started; what is held per group; the last result per group) gives exactly once for ordered scans; witnesses for batch order, retries, precision, idle restarts. | StreamModel, StreamSpec, StreamProofs*, StreamProps |
| C61 | Same model; weaker invariant (at least once) that needs no order of batches, allows any precision, crashes and restarts; witnesses for date_bin groups, late rows within the delay, retries, times before 1970. | StreamModel, StreamSpec, StreamProofs3, StreamProofs4, StreamProps |
| C62 | Model of the routing hash of every interface, of the choice of bucket and replica set, and of the rows of all replica sets. The rows of a table are the fold of the placements of its requests; if the replica set is a function of the series and the time, there is one row each with the last values; instances: lines with full INSERTs, any tag order with a power of two of replica sets (the hash is then a sum of bytes), INSERTs alone, logs alone; witnesses for the others. | RouteModel, RouteSpec, RouteProofs*, RouteProps |
| C63 | Model of the retry loop of the coordinator and of statements on several replica sets, with the replies of nodes as a parameter (success implies execution; unreachable and redirecting nodes did not execute). Induction on the replicas still to be tried; witnesses for the redirected call whose answer is lost and for statements on two replica sets. | CoordModel, CoordSpec, CoordProofs, CoordProps |
| C64 | Model of the choice of candidates, of the failover at opening and of the stream with its limiter. Sorting lemma for the candidates, case analysis of the stream, induction on candidates and on replica sets; witnesses for a lagging replica and for a node that does not know its vnode. | CoordModel, CoordSpec, CoordProofs, CoordProps |
| C65 | Model of the decision to push COUNT down and of the counters for memory and files; specification from the versions of rows and what a SELECT shows of them. Sums over sources compared with the list of versions; the index arithmetic is right when tags come first; witnesses for NULLs, overwritten and deleted rows, added tags, renamed columns and subqueries. | CountModel, CountSpec, CountProofs, CountProps |
| C66 | Model of the statements, the privileges the planner requires for each, name resolution with the set of accessed databases, the rows of the system views, what each executor touches, and the HTTP endpoints beside SQL; specification: the right each effect needs, in terms of the actions of C35. Case analysis over statements; exactness by comparison with an administrator's session. Witnesses for KILL, three-part external tables, SHOW with subqueries, trace reads, DDL dump, reuse of the password. | AccessModel, AccessSpec, AccessProofs, AccessProps |
| C67 | Transition system of authentications through the cache, bearer tokens, statements that change users and roles on this and other nodes, and time; invariant: each cache entry was valid at some moment since its insertion; accepted requests are valid at some moment in the last hour. Witnesses for tokens that never expire, keys ignored on a cache hit, other nodes, a check in flight, late grants. | AuthModel, AuthSpec, AuthProofs, AuthProps |
| C68 | Model of the two plans, the rule that turns scans of tags into scans of the index, the conjuncts the table takes over and the scan by domains; specification: the series the WHERE clause selects by evaluation on its tags or rows. Exactness from C03 for one direction and, for the other, from the domains enforcing each conjunct taken over (induction over AND, with C04's condition on ends); injectivity of keys. Witnesses for tables without tags, unescaped keys, series without rows, clashing bounds, function conjuncts, subqueries. | ShowModel, ShowSpec, ShowProofs, ShowProps |
| C69 | Transition system of the nodes' count buckets and the meta service's rate bucket of C30, with lost replies, restarts and ALTER TENANT; sum of the nodes' counts as potential, the requests seen by the meta service as a C30 history; exact decision of one check by cases. Witnesses for a maximum of one, the exact maximum, no maximum, hoarding, lost replies, ALTER TENANT. | LimitModel, LimitSpec, LimitProofs, LimitProps |
| C70 | Transition system: metadata, each node's copy of it, each node's list of expired buckets it works through, storage on disk, rows; events for writes, scans with the node's clock, each replica set's deletion (failing at any point), synchronisation, ALTER, restarts. Invariants: copies and work lists only name buckets that were created (ids never shared), work lists only expired ones; with one node disk is owned by the metadata; unknown storage is never touched. Witnesses for the leak with two nodes, INF, ALTER and old rows in a live bucket. | TtlModel, TtlSpec, TtlProofs, TtlProps |
| C71 | Transition system of the task table in the meta service, its log, each node's position in it and background tasks, and statements as processes of one call a step. Process invariant of a statement that found its name free: when it ends OK its operation is among those done since. Witnesses: two UPDATEs at once, a second failure, a crash while executing (with an invariant over all continuations), two objects of one task name. | TaskModel, TaskSpec, TaskProofs, TaskProps |
| C72 | Same system. Invariant on every task description and process: what it would carry out was asked for, with the time; so nothing is done early. Invariant of the node holding the mark: a scheduled task is announced later in the log or sleeps there until its time, a cancelled one is not there; from it, that it can be completed by that node alone, and that after RECOVER nothing is done in any continuation. Witnesses: lagging watch, retry after RECOVER, restart, overdue take-over, names. | TaskModel, TaskSpec, TaskProofs, TaskProps |
| C73 | Remote write as lines into tables (latest row of a table, tags and time wins); remote read as the SQL text it builds, read back by a model of the tokenizer and parser restricted to such texts, evaluated with three-valued logic, and regrouped. Lexing/parsing of the built text by induction on the pieces; table contents by induction over the history; the regrouping by an invariant of the fold. Witnesses: quotes in values, upper-case labels, missing labels, unanchored expressions, name matchers, overflow, precision, NULL values, the separator. | PromModel, PromSpec, PromProofs, PromProps |
| C74 | The catalog as lists of tenants, users, databases, roles, privileges, members and tables; the script as text; the client's reading by lines and cutting at semicolons; tokenizer, parser, planner and execution of the statements such scripts contain. Texts as sequences of pieces: lexing, cutting and parsing by induction on the pieces; the run by induction over the list of objects with the set of objects present as state; order and uniqueness from the structure of the script. Witnesses: names with double quotes (also carrying statements), limits, case variants, altered defaults, dropped objects, geometry, column order, comments, blanks, stale privileges, root as a member. | DumpModel, DumpSpec, DumpProofs, DumpRun, DumpMain, DumpProps |
| C75 | JSON values as trees; flattening into an ordered map; text of tags with escapes; numbers as floats with exact rounding; the three kinds of requests. Own specification of the value at a path as an inductive relation; induction over the tree with the prefix generalised; exact condition for rejection. Witnesses: dotted and empty keys, escaped tags, large integers, nulls, Loki in JSON, ids of bulk commands. | LogModel, LogSpec, LogProofs, LogProps |
| C76 | The request as a tree; the map of fields that is carried from span to span; the line (C75's function); the row as cells by column name; the walk over the columns with counters for events and links; numbering of processes. Key lookups by prefixes that exclude each other; invariant over the carried map (ordered, scalar, service kept, events complete); counting lemma for the walk over columns in the order of their numbers. Witnesses: status of an earlier span, phantom events, the eleventh event, event times, quotes, numeric service names, negative durations, batches of several rows, process ids of a search. | TraceModel, TraceSpec, TraceProofs, TraceEvents, TraceFind, TraceProps |
| C77 | timestamp_repair: the four ways to find the interval (with k-means and hash map order as parameter), both start modes, the table and the walk back; doubles in the length as an arbitrary rounding that keeps doubles. Specification: repairs as an inductive relation with costs. Lipschitz property of the table, lower bound by taking repairs apart at their end, the walk back reads off a repair of that cost; an even series has cost zero. Witnesses: rows of 1970, wrong median, few rows, interval 0, equal times, random ties, integer columns, unsigned columns. | RepairModel, RepairSpec, RepairProofs, RepairEven, RepairProps |
| C78 | value_fill: the five methods over exact rationals, cells of the result that are never written as a value of their own. Specification: neighbours of a place, the straight line between them, mean of a list, window of five rows. Invariants of the loops over rows. Witnesses: a missing value in the last row is unwritten memory, the window of ma never shrinks and lags, integer columns turn NaN into 0, unsigned columns are refused. | FillModel, FillSpec, FillProofs, FillProps |
| C79 | value_repair with method screen over exact rationals: filling of missing values, speeds, median deviation, the window, the middle value and the cut to the limits. Specification: neighbouring values and straight line in time, limits of the change from row to row, median as the middle of a sorted permutation. Invariant of the filling loops; counting argument for the middle value; induction over rows for the limits. Witnesses: a single value and two rows panic, integer columns leave the limits, unsigned columns are refused. lsgreedy is not modelled. | ScreenModel, ScreenSpec, ScreenProofs, ScreenProps |
| C80 | The four data quality functions on a whole series (the accumulator is in C49): filling of missing values with doubles that may be infinite or NaN, the moving window of ten rows, outliers by median deviation. Specification: steps between times, expected number of rows, number of values. Counting invariant of the window for the range of the scores; a series with gaps of at most eight rows leaves the window untouched and loses one count per missing row; majority argument for the median step. Witnesses: long gaps are ignored, repeated rows counted once, validity panics for two rows and for equal times, unsigned columns are refused. | QualityModel, QualitySpec, QualityProofs, QualityProps |
| C81 | Running minimum and maximum of flushed columns, the loops of arrow_array_to_page, the null count, the statistics of a list of groups (type of the first, null where the column is missing, none on mixed types) and DataFusion's pruning rules for comparisons (an assumption about the library). Specification: IEEE total order, byte order of strings, the rows a predicate selects. Fold invariants for the bounds; order lemmas for each comparison; induction over the predicate. This is the soundness that C59 assumes of pruning. Witnesses: NaN and -0.0. | PruneModel, PruneSpec, PruneProofs, PruneProps |
| C82 | Query tracker as a transition system: ask under the read lock, insert under the write lock, save in the meta service, start, result, dropping of the result, KILL QUERY, the spawned removal, crash and recovery, one event each, any interleaving. Specification: what SHOW QUERIES lists, which stream queries run, which events break a statement off. An invariant over all events; separate invariants for a killed query; induction over the list of saved queries for the restart. Left out: sql_history, moving queries of dead nodes. Witnesses: slots lost by clients that go away (the node then refuses KILL too), unsaved and failed streams, kills undone by a restart, kills without effect. | TrackerModel, TrackerSpec, TrackerProofs, TrackerProps |
| C83 | Data file objects with identity, the current version, a version being installed, the versions that queries hold, the files on disk with the object each was written for. Events: begin, end, edit (flush or compaction), install, apply snapshot, crash. Specification: a file is intact if the one written for it is at its path. Invariant over all events: paths of held objects differ, each is on disk, marked ones are not in the version to be installed; a second invariant for the absence of left-over files. Left out: contents, tombstones, the reader cache. Witnesses: a query that ends after a snapshot removes files of the snapshot; it reads another file meanwhile; a crash leaves files for ever. | LifeModel, LifeSpec, LifeProofs, LifeProps |
| C84 | Shards as lists of entries, the most recently used first; every call is one step on one shard. Specification: the value last stored in the history. Invariant: no key twice in a shard, entries within the capacity, each entry in the shard of its key with the value last stored; then a position invariant for the order of eviction. The crate lru is modelled from its documentation. Left out: unbounded caches, what the caches are used for. Witness: evicting picks an empty shard. | LruModel, LruSpec, LruProofs, LruProps |
| C85 | Histograms with wrapping 64-bit numbers, the report with cumulative counts, counters, averages as two atomics with one event per access, the rows of the system tables. Specification: number and sum of the observations that satisfy a condition. Induction over observations with the reported list as a function of the thresholds. Left out: labels and registers, conversion to f64. Witnesses: the average divides by one too many and loses what is added during a report; the system tables have counts that are not cumulative. | MetricModel, MetricSpec, MetricProofs, MetricProps |
| C86 | The register: counters by name and labels, the list of families to be shown once; events for additions, flushes and reports by the two readers. Specification: the sum of what was added in the history, the list of what was handed in. Induction over histories with lookups in sorted association lists. Left out: sub-registers (not used by the server), kinds other than counters, the labels of the register. Witnesses: a look at the metrics page takes the figures of a flush away from the system tables; two flushes between two looks give a name twice. | RegisterModel, RegisterSpec, RegisterProofs, RegisterProps |

## Trusted base (kept current)

### What accepts the proofs

* The kernel of Coq 8.16.1, run by `coqc` on every file and again by `coqchk` on the compiled files. No kernel check is
  switched off, there are no plugins, no functors and no module types, and nothing is `Admitted`. `vm_compute` is used
  in the non-vacuity examples and in the witnesses of `_refuted` theorems, so the kernel's virtual machine is part of
  the base.
* `Print Assumptions` of each of the theorems named in `MANIFEST.json` says "Closed under the global context": no
  axiom, neither of the standard library nor of ours. Each `XProps.v` prints this below its theorems. (Last run on all
  of them at once: 605 theorems, 605 times "Closed under the global context".)
* `coqchk` lists seven axioms `Coq.ssr.ssrunder.Under_rel.*`. They belong to the standard library's `ssreflect`
  files, which are loaded through `Lia`/`Zify`'s dependencies. No theorem here depends on them, as `Print Assumptions` shows.
* Libraries: only Coq's standard library (`List`, `ZArith`, `NArith`, `Lia`, `Bool`, `Permutation`, `Sorted`,
  `Decimal*`, `Ascii`, `String`, `Cantor`, `QArith`, `Qabs`, `Qround`).

### What has to be believed about the models

The reading of `/repo` recorded in the comments of the model files. Each definition cites the lines it models and says
where it simplifies. Three kinds of assumptions recur:

1. *External code as parameters.* The theorem quantifies over the function and states what it uses of it.
   CRC32 and the compressors of pages (snappy, zstd, gzip, bzip, zlib, pco): any function, with decompress after
   compress = identity where a round trip needs it (C13, C14, C44, C55). Hash functions of the bloom filter: any
   (C29). bincode and JSON of stored structures: decode after encode = identity (C26, C52, C53, C55). Evaluation of
   SQL expressions and page pruning by DataFusion: any function; pruning is assumed never to discard a page with a
   matching row (C23, C59). Replies of other nodes: any, with "success was reported only if it was executed" (C63).
   Random draws and hash-map orders: any (relations or arbitrary permutations; C32, C50, C64). Clocks: inputs.
2. *External code as read from its documentation* (its source is not in the sandbox). The `skiplist` crate's ordered
   list places an element that compares equal in an unspecified place among its equals (C11). LMDB behaves as an
   ordered map with atomic transactions and refuses keys longer than 511 bytes (C18-C20, C53). Flatbuffers give back
   the fields that were put in (C56). `openraft` calls the storage trait as its contract says (C15, C43, C52).
   Arrow's sort is stable where the code relies on `lexsort`, DataFusion executes plans as the operators are defined
   and plans aggregates in two stages (C49, C65, C68). `sqlparser`'s tokenizer and expression parser, restricted to
   the texts that occur (C73, C74). `serde_json`, `prost`, `chrono`, `humantime`, `byte_unit`: parsing of well-formed texts
   only (C74-C76). IEEE doubles: as bit patterns in codecs (C06-C10), by exact integer arithmetic with rounding
   where values matter (C75), as exact rationals in the repair functions (C77-C79). `bcrypt` and RSA: any deterministic verification function (C67).
3. *Granularity of steps.* In transition systems (C28, C32, C54, C60, C63, C67, C69-C72) a step is one atomic
   operation, one call to the meta service, or one critical section of a lock; the comment at each step relation says which. Crashes
   fall between steps, and inside file appends at any byte (C13, C14). The file system keeps what was synced and a prefix of
   what was not.

### Which parts of the code are modelled

| crate | modelled | not modelled |
|-------|----------|--------------|
| `common/models` | `TimeRange(s)`, domains, predicate transformation, ids, durations, privileges, buckets, table schema and its changes, `MutableBatch`, series keys, meta data structures, auth cache, `sql/mod.rs` for tenants, users, databases, roles, tables | external and stream table texts, geometry (WKT), error codes, Arrow conversions of `record_batch` |
| `common/utils`, `common/cache`, `limiter_bucket`, `memory_pool` | bloom filter, BKDR hash, precision, circular cache, both buckets, pool | `dedup.rs`, `backtrace`, sharded LRU caches, duration texts |
| `common/protocol_parser` | line protocol, JSON (bulk, ndjson, Loki), conversion into batches | OpenTSDB text and JSON, Prometheus protobuf decoding |
| `tskv` | all codecs, pages, TSM writer/reader, tombstones, record files, WAL, summary, memcache, flush, pickers, compaction, reader pipeline (grouping, merge, filter, alignment, push-down count, tag scan), series index, snapshots | file system layer and its caches, metrics, `compaction/check.rs` and `compute/count.rs` (commented out in `/repo`), I/O errors in the middle of reads |
| `replication` | node store, state store, log store adaptor, membership keys | the network layer, `openraft` itself |
| `meta` | storage state machine (all commands), watch log, meta admin/tenant clients as far as cited, limiters, dump | HTTP layer, `openraft`, clients' TLS |
| `coordinator` | routing, retry, replica choice, TTL, resource manager tasks, raft writer/manager | gRPC framing, metrics reporting |
| `query_server` | planner's privileges, DELETE/UPDATE/ALTER executors, time windows, aggregate functions named in C49-C51, stream execution, SHOW plans and their rewrite, COUNT push-down, remote read/write, restore of dumps, `timestamp_repair`, `value_fill`, `value_repair` (method screen), data quality functions | the SQL grammar beyond cited texts, DataFusion's optimizer, window gap filling, GIS functions, `value_repair` with method lsgreedy, `topk`/`bottom`, COPY INTO, external tables |
| `main` | HTTP handlers for lines, logs, traces, dump, Jaeger view, Flight SQL authentication | HTTP server, result formats, Flight SQL statements, Vector gRPC |
| `client` | reading a dump for restore | the rest |
