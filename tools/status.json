{
 "C01": {
  "status": "partial",
  "note": "Exact for new/includes/overlaps/intersect/exclude. push/extend on a set whose hull is the whole time line drop the addition (C01_push_refuted); adding an empty range loses instants; range-minus-set keeps i64::MAX."
 },
 "C06": {
  "status": "proved",
  "note": "Round trip for every i64/u64 column and null pattern (zigzag delta, RLE, simple8b and raw forms)."
 },
 "C07": {
  "status": "partial",
  "note": "Round trip when the first row is not null; a null first row loses the first value in the packed form (C07_null_first_refuted). f64 log10 is taken as exact on powers of ten."
 },
 "C08": {
  "status": "proved",
  "note": "Round trip for every boolean column below 2^56 rows."
 },
 "C09": {
  "status": "partial",
  "note": "Gorilla codec at bit-stream level; round trip for everything accepted except a one-value block holding the end-marker NaN (C09_single_sentinel_refuted). The byte-level write/read buffering is abstracted to a bit stream."
 },
 "C10": {
  "status": "proved",
  "note": ""
 },
 "C44": {
  "status": "partial",
  "note": "All types and codecs, compressors as arbitrary invertible functions; the two failing cases of C07 and C09 are excluded."
 },
 "C05": {
  "status": "partial",
  "note": "Exact when every bound is a multiple of the precision unit and non-negative fractions aside; otherwise bounds are truncated (C05_lower_bound_refuted, C05_upper_bound_refuted) and an unconditional DELETE is not converted (C05_unbounded_refuted). Covers is proved in general for the stated side."
 },
 "C40": {
  "status": "proved",
  "note": ""
 },
 "C41": {
  "status": "partial",
  "note": "Exact and duplicate-free assignment when the slide divides the window, or the window is shorter than the slide with a small origin, for instants not before the origin minus one slide. Other cases refuted: non-dividing slide, instants before the epoch, origins larger than the window."
 },
 "C42": {
  "status": "proved",
  "note": ""
 },
 "C29": {
  "status": "partial",
  "note": "No false negatives for any filter and insertion order, and after a save/reload when the filter has more than 32 bits; smaller filters change size on reload and lose members (C29_small_reload_refuted). The two hash functions are arbitrary."
 },
 "C30": {
  "status": "partial",
  "note": "Budget, balance and per-request bounds for every request history; exact refill except when the 64-bit product wraps (C30_refill_wrap_refuted)."
 },
 "C31": {
  "status": "proved",
  "note": "Refinement to a bounded FIFO map for every operation sequence and every capacity."
 },
 "C32": {
  "status": "partial",
  "note": "The limit holds while the requested sizes do not wrap the 64-bit sum (C32_wrap_refuted)."
 },
 "C33": {
  "status": "partial",
  "note": "Every timestamp except i64::MAX (C33_max_refuted); disjointness for a fixed bucket duration."
 },
 "C34": {
  "status": "partial",
  "note": "Holds while the bucket duration of the database is not altered (C34_alter_duration_refuted)."
 },
 "C35": {
  "status": "partial",
  "note": "Check and statement rules, order of privileges, tenant isolation, GRANT and REVOKE histories are exact. GRANT replaces an earlier privilege, so GRANT READ after GRANT ALL removes write (C35_grant_monotone_refuted); the role cache is looked up with a user id, so a custom role member is not found there (C35_member_role_refuted)."
 },
 "C13": {
  "status": "partial",
  "note": "For every crc function, every history of opens and appends and every consumer; random access through any handle on the growing file. Two cases fail: an empty last record is not returned (C13_empty_last_refuted) and record bytes that look like a footer are taken for one (C13_footer_refuted)."
 },
 "C14": {
  "status": "partial",
  "note": "Torn last append: exact for every cut. WAL recovery: exact for any number of crashes when each tear is at most 3 bytes or holds the header and no further 'F' byte. Refuted otherwise: an append after a tear inside a header is lost, two tears can make reading panic, a record image inside torn data is returned."
 },
 "C15": {
  "status": "partial",
  "note": "Refinement of the file-backed log (rolling, purging, truncating, entry cache, restart) to a plain list for every history within op_ok; a stale read outside it is exhibited (C15_stale_read_refuted)."
 },
 "C16": {
  "status": "partial",
  "note": "Answers are the true last entry, and given after every append; refuted after a truncation that empties the entry cache (C16_last_refuted)."
 },
 "C17": {
  "status": "partial",
  "note": "Applied entries survive; with nothing purged and nothing unapplied the restart is exact; unapplied entries are dropped (C17_unapplied_lost_refuted). Crashes in the middle of a write are covered at the record level only (C14)."
 },
 "C43": {
  "status": "partial",
  "note": "The storage contract over every history of append, truncate, purge, within nop_ok; purged entries come back after a restart (C43_purged_resurface_refuted)."
 },
 "C04": {
  "status": "partial",
  "note": "of_ranges, union and intersection are exact at every value where ends do not coincide with different openness; unconditionally the union never invents a value and the intersection never loses one; value sets are exact. The unconditional equivalence is refuted (coinciding open/closed ends)."
 },
 "C02": {
  "status": "partial",
  "note": "Exact for conditions on one kind of column, or one group of tag conditions AND one group of time conditions, with no open/closed clash at one literal and time literals strictly inside i64 (C02_delete_exact_partial). Refuted otherwise: ungrouped conditions lose conjuncts, NULL literals and time > i64::MAX delete everything, coinciding bounds. Nanosecond databases; coarser precisions are C05."
 },
 "C03": {
  "status": "partial",
  "note": "Sound for filters whose comparisons have no operator inside an operand, no cast of time/tag columns, column-typed literals, and no open/closed clash under OR (C03_pushdown_sound_partial, all shapes of AND/OR/opaque predicates). Refuted for operands with operators, coinciding bounds under OR, and casts."
 },
 "C21": {
  "status": "proved",
  "note": "Loser tree, cursors and batch builder modelled; for any time-sorted streams, batch boundaries and batch size >= 1 the output is the merge of all rows (one row per timestamp, increasing, last non-null value per column in stream order)."
 },
 "C11": {
  "status": "partial",
  "note": "Writes and deletes in any order on a partitioned cache; DROP COLUMN leaves every other value as it was when no time stamp was written twice. Excluded and refuted: two rows of one time stamp in one batch, i64::MAX, older schema versions arriving late, dropping a column from a series with overwritten time stamps. Skip-list insertion order is an external assumption built into the model."
 },
 "C12": {
  "status": "proved",
  "note": "Both delete requests, for every history; other rows and series are unchanged."
 },
 "C24": {
  "status": "proved",
  "note": "Grouping is a partition into time-disjoint, ordered, connected groups; the whole read merges by file id."
 },
 "C23": {
  "status": "partial",
  "note": "Refuted in general (filter runs before versions are merged); proved when all versions of a row agree on the filter, for time/tag clauses, and when no timestamp was written twice."
 },
 "C25": {
  "status": "partial",
  "note": "Output content, query-equivalence (row level and through the reader) proved for requests with ascending first series ids; refuted for other requests (series split) and for the level picker's file order."
 },
 "C22": {
  "status": "partial",
  "note": "Proved on a model of one series with the actual cache, flush, compaction and read models: for every history without compaction (flushes in any progress and order) a query returns the latest values; with compactions, if no time stamp is written twice it returns exactly the rows, and in general the right time stamps with values that were really written. The full statement is refuted: a compaction output gets a file id above the current cache, so a rewrite of a compacted time stamp is permanently hidden (C22_compaction_refuted)."
 },
 "C28": {
  "status": "partial",
  "note": "Proved when deletes do not arrive in the middle of a flush or compaction. Refuted otherwise in three ways (delete during flush, delete during compaction, tombstones overwritten by a delta compaction)."
 },
 "C18": {
  "status": "partial",
  "note": "For every hash function and every history of registrations, lookups, deletions, tag updates, flushes, cache evictions, tombstone clearing, crashes and queries, the results are those of a dictionary with unique ids and keys; same id on re-registration, survival of crashes once flushed, and no id reuse are stated separately. Missing: table names with dots or reserved prefixes, keys of 511 bytes or more, 2^32 or more operations, index rebuild. Findings (refuted theorems): an updated series is lost in a crash, replayed updates can give two ids one series, a long key blocks every flush, 16-bit lengths make two series share an id."
 },
 "C19": {
  "status": "partial",
  "note": "Queries by tag conditions (value sets, ranges, conjunctions) return exactly the live matching series for every history, over cache and storage together; column ids as tag names, table names without dots. Findings: a table name containing a dot is found by queries of its prefix; get_series_id_list with three tags can return a non-matching series."
 },
 "C20": {
  "status": "proved",
  "note": "Stored keys identify their series without restriction (the storage takes at most 511 bytes); kinds of keys never collide. Finding: beyond the storage limit the 16-bit lengths make the encoding non-injective, which the write cache is exposed to."
 },
 "C27": {
  "status": "partial",
  "note": "Byte round trip of tombstone records unconditional. For every history of deletes, completed moves (delta compactions) and restarts, what is hidden is exactly what was deleted or moved, when no two ranges of the history are half-lines leaving a gap. Refuted: half-lines lose later deletes (C27_half_lines_refuted), deletes between the temporary file and its installation are lost (C27_concurrent_delete_refuted), a failed compaction's temporary file hides rows later (C27_stale_tmp_refuted). Torn writes of the tombstone file are covered at the record level by C14."
 },
 "C26": {
  "status": "partial",
  "note": "Recovered and running version show exactly the files of the history for every history of edits, rewrites, crashes, restarts and snapshots and every map iteration order; the next id exceeds all live ids. A rewrite that fails half-way loses later edits (C26_failed_rewrite_refuted); ids of removed files are handed out again after a rewrite (C26_file_id_reuse_refuted)."
 },
 "C45": {
  "status": "partial",
  "note": "Same answers when no file hides deleted rows and overlapping files are listed in id order. Renumbering makes old values win (C45_renumbering_refuted); tombstones are not transferred (C45_deleted_rows_refuted)."
 },
 "C38": {
  "status": "partial",
  "note": "Exact for one server over every history of changes, requests, wake-ups, restarts and resynchronisations; key filter characterised. Refuted: snapshot install skips changes, a lagging replica repeats them, the tenant's own record is not delivered, a newly watched tenant misses changes."
 },
 "C36": {
  "status": "partial",
  "note": "All ~38 metadata write commands are modelled. Proved for every legal history: after DROP DATABASE no key of the database, its tables or buckets remains, and a re-created one is empty; a dropped role is gone and a re-created one has only the privileges given; a dropped user is gone and listed in no tenant, a re-created user with a fresh id is a member nowhere; DROP TENANT as the coordinator runs it never fails and a re-created tenant has no roles, databases or members. Refuted (findings): memberships of dropped users stay; members keep a dropped role and get the re-created one; privileges on a dropped database pass to its successor; the metadata command leaves databases; a late table update resurrects a table; tables with '/' in the name survive."
 },
 "C37": {
  "status": "partial",
  "note": "Proved for every history: replicas that iterate hash maps in arbitrary orders end with equal data, version, id counters and answers, provided they agree on clock/UUID/reachability for the commands listed in 'agree'. Refuted (findings): role ids (UUID drawn on each replica), tenant limiters and limiter requests (local clock), bucket creation (reachability, ties in free space), change log order."
 },
 "C39": {
  "status": "partial",
  "note": "Round trip for every list of points and every documented spelling (escapes anywhere, comments, blank lines, CR/LF, all value kinds), with names outside 'writable' excluded; the exclusions are shown to be genuine parser defects by the refuted theorems. The float parser is a parameter."
 },
 "C46": {
  "status": "partial",
  "note": "For all histories in which clients add a reserved id once (ids_ok). The id counter is unbounded in the model; in the code it is a u32 that wraps silently."
 },
 "C47": {
  "status": "partial",
  "note": "Scope, tenant isolation, refused = unchanged, stored, removed: for all commands and histories with legal names. Clusters are apart except for DROP USER (C47_drop_user_other_cluster_refuted)."
 },
 "C48": {
  "status": "partial",
  "note": "Proved while the table stays stored and without raw Set; an update after DROP TABLE is accepted (C48_update_after_drop_refuted). Lock: proved for all histories."
 },
 "C49": {
  "status": "partial",
  "note": "MODE in full for fewer than 2^32 rows. FIRST/LAST for rows that have a value whenever they have a time (a null value hides its batch: refuted). INCREASE in one partition (over two the increase between them is lost: refuted). GAUGE_AGG for distinct times. Data quality functions for one batch per partition (only the last batch counts: refuted)."
 },
 "C50": {
  "status": "partial",
  "note": "rows are from the input, none twice, for all plans; between 1 and 2n-1 rows; the exact number for one batch. Refuted: n=5 gives 6 rows of 9 in three batches, n=8 gives 4 of 7 rows in seven batches, n=1 only ever draws from the first batch."
 },
 "C51": {
  "status": "partial",
  "note": "total duration in full; duration since/within and STATE_AT for at least two rows (a single row is an error: refuted) and non-negative intervals (refuted). Distinct times."
 },
 "C52": {
  "status": "partial",
  "note": "Proved for vnode replicas with crashes anywhere but inside the installation of a snapshot, and for metadata replicas when no crash falls between recording an entry as applied and applying it. Refuted with a concrete history otherwise: both record the index before the data. Terms and power failures are not modelled."
 },
 "C53": {
  "status": "proved",
  "note": "Store refines one record per group for every history. Values are kept decoded; transactions are atomic; the snapshot index asked for is not below an index memberships were cleared up to (snapshot indexes only grow)."
 },
 "C54": {
  "status": "partial",
  "note": "Holds for all histories in which the delta picker does not take a level-0 file that falls between the files of a level (C54_gap_refuted: that file is not marked and is taken twice). Marks are released unless a compaction fails (C54_failed_refuted). Level scores are arbitrary; a pick is one step."
 },
 "C55": {
  "status": "partial",
  "note": "Proved: which histories a file accepts, reading back after any history of tag updates without metadata compression, raw copies, the series filter. Refuted: a tag update with compressed metadata leaves a file whose opening panics; a crash within a tag update leaves a file that does not open. Assumed: bincode round trip, footer of fixed size, codec round trip."
 },
 "C56": {
  "status": "partial",
  "note": "Proved for all requests in which no name of a table is used in two ways, with schemas that know the columns (any number of tables, points and missing values), and for replays under unchanged columns. Refuted (counterexamples): a text field with the name of a tag of the same point overwrites the tag; strict databases drop unknown fields, keep values of a wrong type and panic on a field named as a tag column; replay after RENAME COLUMN loses the value."
 },
 "C57": {
  "status": "partial",
  "note": "Proved for all histories in which ALTER TABLE runs on the schema it was planned with and for writers whose first request to the metadata is not refused; the columns are added in any case. Refuted: a refused writer goes on with the schema it made up, so its values are read as another writer's field; two concurrent ADD COLUMN statements give two columns one id and writes then panic. DROP TABLE and u32 overflow of ids are left out."
 },
 "C58": {
  "status": "partial",
  "note": "Proved for files whose schema version tells which columns they have (C58_values_kept_partial); without that condition rows and columns common to all blocks are kept (C58_rows_kept, C58_common_column_kept). The full claim is false of the code: a flush labels its file with the newest version of all series (C58_values_kept_flush_refuted), a compaction labels merged blocks with the oldest (C58_values_kept_output_refuted); in both cases a later compaction drops values of an added column."
 },
 "C59": {
  "status": "partial",
  "note": "Proved for chunks whose column groups have the same columns, predicates whose AND/OR are not below another operator and names that were not reused. The full claim is false of the code: a chunk of a raw-copied old block and a newer block makes every query of the new column fail (C59_scan_mixed_chunk_refuted), predicates find file columns by name so a reused name loses rows (C59_filtered_scan_rename_refuted), and rewriting below IS NOT TRUE and the like strengthens the predicate (C59_filtered_scan_nested_refuted)."
 },
 "C60": {
  "status": "partial",
  "note": "Proved: exactly once for queries with GROUP BY over ns tables with crashes and restarts at any point, provided runs do not end with errors, rows arrive in time order, the last batch of a scan has its latest row, a later row arrives after a stop before the next run, and groups do not end before their rows; for queries without aggregation while the server does not stop. Refuted otherwise (witnesses): batch order of a scan, retried runs, ms tables, idle restarts, restarts of queries without aggregation. Model: one source table, no WHERE, aggregate state = rows, DataFusion operators as documented."
 },
 "C61": {
  "status": "partial",
  "note": "Proved: every row at least once (and no foreign row) for every precision, batch order, crash and restart, when rows arrive in time order, groups do not end before their rows and no run ends with an error (errors allowed without aggregation). Refuted otherwise (witnesses): GROUP BY date_bin drops rows of a window that has begun, late rows within the configured delay are dropped, a failed run's groups are dropped by its retry, ms times before 1970."
 },
 "C62": {
  "status": "partial",
  "note": "Proved for lines together with INSERTs that give all tags of a table declared in name order, for any declared order when buckets have a power of two of replica sets, for INSERTs alone and for the log APIs alone. Refuted (two rows for one table, tags and time): other tag orders, NULL tags, a tag added between INSERTs, renamed tags, updated tag values (also onto an existing series), log APIs beside lines."
 },
 "C63": {
  "status": "partial",
  "note": "Proved for all replies and leader changes: success means that the last call executed the request; at most one execution, and none when the answer says it was not started, if no redirected call was executed and answered with an error; exactly one when the leader is reachable; leader first, all nodes tried, at most two calls per replica; over several replica sets success means all of them, and refusal by the limiter means none. Missing because false: a redirected call whose answer is lost is retried on the next node and may run twice or end in an answer saying it was not started; a failing statement may have taken effect in some replica sets. That an unreachable or redirecting node did not execute is an assumption on gRPC and openraft."
 },
 "C64": {
  "status": "partial",
  "note": "Proved: a read returns a beginning of one replica not marked broken, all of it when it succeeds; no readable replica is an error; the leader is read when it answers; one unreachable node of two or more readable replicas does no harm; copying replicas last; a replica marked broken is not asked again; a successful query is the rows of all replica sets when the candidates are in sync. Missing because false: acknowledged rows may be missing when a lagging or copying replica is read instead of the unreachable leader, a node that does not know the vnode answers with no rows and no error, and a third replica is never tried."
 },
 "C65": {
  "status": "partial",
  "note": "Proved: exact_count and COUNT with WHERE, GROUP BY, DISTINCT or of a tag are computed from the rows; COUNT(*) never misses a row; COUNT(*) is exact when no row was overwritten or deleted after a flush; COUNT(column) is exact when moreover the column kept its name, has no NULL in files, and no tag was added after fields. Missing because false (witnesses): NULLs in files are counted, overwritten and deleted rows are counted, after ADD TAG another field is counted or none, after RENAME COLUMN values in files are not counted, a subquery that renames columns is ignored."
 },
 "C66": {
  "status": "partial",
  "note": "Proved for every statement and write request except KILL, three-part CREATE EXTERNAL TABLE, SHOW SERIES/TAG VALUES with a subquery on another database, the Jaeger trace reads and the DDL dump, where it is false (five refuted theorems); storing a hash of the old password satisfies must_change_password (C66_same_password_refuted). Query planning is taken as: every table scanned was obtained from the schema provider. File locations of COPY and external tables and the raft/meta debug endpoints are not modelled."
 },
 "C67": {
  "status": "partial",
  "note": "Accepted requests proved grounded in users, members and roles stored at most TTL + check time + watch lag ago, and grounded at once after the watch and purge with no check in progress; not for bearer tokens (never re-validated), private keys (ignored on a cache hit) and the member-role race, which are refuted"
 },
 "C68": {
  "status": "partial",
  "note": "proved for tables with tags and WHERE clauses whose conjuncts are comparisons of a tag with a literal or predicates (no bare function call, no clashing bounds); false otherwise: six recorded cases"
 },
 "C69": {
  "status": "partial",
  "note": "bound proved for histories without ALTER TENANT; decision exact; false as stated in six recorded cases (strict comparison, hoarding, lost replies, ALTER TENANT)"
 },
 "C70": {
  "status": "partial",
  "note": "Proved: retained rows are kept, accepted; older rows without a bucket are refused; with one node, expired rows go and no storage is left. Not true in general (refuted): storage leaks with several nodes, INF is 2^63-1 units, a node that missed ALTER deletes by the old TTL, old rows enter live buckets. Simplification: a shut-down group deleted from the metadata is forgotten only after the node's copy has caught up."
 },
 "C71": {
  "status": "partial",
  "note": "Proved: a statement that finds its name free and ends OK has been carried out since it was issued, for every interleaving. Refuted in general: a concurrent UPDATE of the same table is dropped, a second failed DROP is never retried and blocks later ones, a DROP interrupted by a crash blocks the name for good, two objects can share a task name; all answered OK. Calls of the meta service are taken not to fail; what the operation does to the data is C28, C46-C48."
 },
 "C72": {
  "status": "partial",
  "note": "Proved: nothing is carried out before a time it was asked for (names not clashing); without failing nodes a delayed DROP is kept by the first node and its task alone completes it at its time; after the nodes heard of RECOVER nothing is done on the object in any continuation, crashes included. Refuted: RECOVER while the watch lags, RECOVER of a failed DROP being retried, restart of a single node forgets the DROP, an overdue task taken over sleeps 2^64 ns, name clashes cancel or run another object's DROP. Rewinding of the watch position is not modelled."
 },
 "C73": {
  "status": "partial",
  "note": "Proved for nanosecond databases written by remote write only, for label names of lower-case letters, digits and _, values without quotes (in queries) and without character 1, matchers on labels that the metrics have (and all their series, if the matcher accepts the empty value), anchored expressions and exactly one matcher on the name. The excluded cases are refuted by witnesses. sqlparser's tokenizer/parser is modelled only for texts of this shape (a quote that ends a string early can build others: shown for OR). The unit in which a number is compared with the time column is DataFusion's coercion (assumed: the column's unit)."
 },
 "C74": {
  "status": "partial",
  "note": "Proved for catalogs whose names, options and tables the script can express (no double quotes or line breaks in names, no tenant limits, no geometry columns, tables with tags before fields) in clusters with the same initial objects. Durations and sizes: any texts that are read back. External and stream tables are left out. Twelve findings are proved as refuted variants, among them two by which a name chosen by a user runs statements as the administrator."
 },
 "C75": {
  "status": "partial",
  "note": "Proved for records whose keys are non-empty and have no dot; refuted for dotted and empty keys, escaped tags, integers beyond 2^53, nulls, Loki requests in JSON and ids of bulk commands. Protobuf and JSON decoding not modelled."
 },
 "C76": {
  "status": "partial",
  "note": "Proved for spans with plain names and a status, any table columns; events and links for ordered columns; traces of one-row batches. Refuted: status leaking from an earlier span of the resource, phantom events, eleventh event lost, event time unit, quotes in names, numeric service names, negative durations, batches of several rows, process ids of a search. Protobuf and the scan are not modelled."
 },
 "C77": {
  "status": "partial",
  "note": "Proved for every series that the rows shown are those of a cheapest repair on an even grid, except for leading added rows, and that an even series is unchanged. Refuted: rows of 1970-01-01, the median, series of up to two rows, interval 0, equal times, random ties, NULLs of integer columns, unsigned columns."
 },
 "C78": {
  "status": "partial",
  "note": "Methods mean, previous and linear give the promised value (linear: not in the last row, where the code returns memory it never wrote: C78_unwritten_refuted), all methods keep times and values that are there, and fail only without values. ma is not a moving average (two witnesses); ar only: no value is missing. Integer columns show NaN as 0 and unsigned columns are refused. Exact arithmetic instead of doubles."
 },
 "C79": {
  "status": "partial",
  "note": "Method screen over exact rationals with strictly ascending times: missing values, limits (given or derived), unchanged slow series and answers are proved. Panics for one value and for two rows, integer columns that leave the limits and refused unsigned columns are witnesses. Missing: method lsgreedy, rounding of doubles, equal times."
 },
 "C80": {
  "status": "partial",
  "note": "Range, order, regular series with gaps of up to eight rows and constant series are proved over exact rationals. Witnesses: gaps of ten steps and more do not count, several copies of a row count once, validity panics for two rows and for rows of equal time, unsigned columns are refused. Missing: what validity and timeliness are for series in general, rounding of times to doubles. Missing values of a line are filled with that line; a constant series with missing values has validity 1."
 },
 "C81": {
  "status": "partial",
  "note": "Proved for all types, writers, predicates and groups, for floats other than NaN and -0.0: no group with a selected row is skipped. For integers and times, <, <=, >, >= read exactly the groups with a selected row, and = those whose range has the literal. The rules of DataFusion's PruningPredicate and Arrow's order of floats are modelled from their documentation. Refuted: NaN and -0.0 rows are lost; after a flush the statistics of strings and Booleans are not exact (harmless)."
 },
 "C82": {
  "status": "partial",
  "note": "Proved for all histories: limit, exact admission, slots freed by answers and ends, a slot without execution only after a break-off, KILL exact and lasting without restart or after the removal, streams saved and restarted. False: slots of abandoned queries are lost for ever (wedged node), unsaved and failed streams keep a slot, kills undone by a crash or by a late save, kills of queries that have not started, hand out rows or are DDL do not stop them."
 },
 "C83": {
  "status": "partial",
  "note": "Proved for all histories without applied snapshots: every current file and every file held by an unfinished query is the one written for it (also over crashes); without restarts no unneeded file stays; an edit replaces exactly the files it names, also when a crash comes before it is installed. Refuted: after apply_snapshot the file ids start at 1 again, so the end of an older query removes live files, and an unfinished one reads the wrong file; a crash leaves compacted files on disk."
 },
 "C84": {
  "status": "partial",
  "note": "Freshness, capacity, retention and order of eviction proved for every hash function and history; refuted: evicting from a cache that is not empty can yield nothing (C84_pop_refuted). The crate lru is modelled from its documentation."
 },
 "C85": {
  "status": "partial",
  "note": "Histograms proved exact as long as number and sum stay below 2^64 (complete with the largest threshold, which all histograms of the server have), in the metrics page and summed up in the system tables; counters proved; refuted: averages (divided by one too many, additions during a report lost, the second reader sees 0) and the single buckets in the system tables (not cumulative). Labels are not modelled; the register is C86."
 },
 "C86": {
  "status": "partial",
  "note": "Counters and exactly-once reporting proved over all histories; refuted: the system tables miss the figures of flushes that the metrics page showed first, and the page can have a name twice. Labels of the register and sub-registers are not modelled."
 }
}