{"id": "C01", "title": "Time-range sets behave as sets of instants", "statement": "A set of time ranges built by any sequence of additions contains an instant if and only if one of the added ranges contains it; and intersecting, excluding, testing inclusion and testing overlap of such sets agree with intersection, difference, subset and non-disjointness of the instants they contain.", "quantifier": "all i64 bounds (including i64::MIN/MAX), all sequences of added ranges, all queried instants and ranges", "why_tests_cant": "The merge loop and the +/-1 adjacency arithmetic depend on every relative order of unboundedly many ranges and on the extreme i64 values; a test samples a few layouts.", "anchors": ["common/models/src/predicate/domain.rs: TimeRange::{overlaps,includes,contains,intersect,exclude,exclude_time_ranges}", "common/models/src/predicate/domain.rs: TimeRanges::{new,add_time_range,push,extend_from_slice,includes,contains,overlaps,intersect,exclude,exclude_time_ranges}"]}
{"id": "C02", "title": "DELETE removes only the rows its WHERE clause selects", "statement": "For every accepted DELETE ... WHERE clause (conjunctions of comparisons of tag columns and the time column with literals), a row is removed if and only if the row satisfies every conjunct.", "quantifier": "all conjunction trees of comparisons in any order and nesting, all rows", "why_tests_cant": "The translation is a stack machine over arbitrary expression trees; only some interleavings of tag and time conjuncts go wrong, and no finite set of queries covers all shapes.", "anchors": ["common/models/src/predicate/transformation.rs: DeleteSelectionExpressionToDomainsVisitor", "query_server/query/src/execution/dml/delete_from_table.rs", "tskv/src/vnode_store.rs: delete"]}
{"id": "C03", "title": "Query push-down never discards a row that satisfies the WHERE clause", "statement": "For every filter expression, every row for which the filter evaluates to true lies inside the column domains (time ranges and tag sets) the filter is translated to, so pruning storage by those domains cannot lose a result row.", "quantifier": "all filter expression trees over and/or/comparisons/other operators, all rows", "why_tests_cant": "The translation is a stack machine in which unsupported sub-expressions push an unexpected number of entries; soundness is a statement over all trees.", "anchors": ["common/models/src/predicate/transformation.rs: RowExpressionToDomainsVisitor", "common/models/src/predicate/domain.rs: ColumnDomains::{intersect,column_wise_union}"]}
{"id": "C04", "title": "Range-domain union and intersection agree with the sets of values they describe", "statement": "The union (intersection) of two value domains contains a value if and only if one (both) of them contains it, whatever the mix of open, closed and unbounded endpoints.", "quantifier": "all finite lists of ranges with open/closed/unbounded ends over any totally ordered value type, all values", "why_tests_cant": "Endpoint comparison ignores open/closedness, so failures depend on coinciding endpoints in particular orders; tests only try a few endpoint combinations.", "anchors": ["common/models/src/predicate/domain.rs: Marker", "common/models/src/predicate/domain.rs: Range::{overlaps,intersect,span}", "common/models/src/predicate/domain.rs: Domain::{of_ranges,intersect,union}", "common/models/src/predicate/domain.rs: EqutableValueSet"]}
{"id": "C05", "title": "DELETE time bounds keep their meaning in databases of coarser precision", "statement": "When the nanosecond time bounds of a DELETE are converted to a database's millisecond or microsecond precision, a stored row is removed if and only if its timestamp, read as nanoseconds, lies within the bounds the user gave.", "quantifier": "all i64 nanosecond bounds, all precisions, all stored timestamps", "why_tests_cant": "Truncating division misbehaves only for bounds that are not multiples of the unit and differs by sign; the domain is all i64 bounds.", "anchors": ["query_server/query/src/execution/dml/delete_from_table.rs", "common/utils/src/precision.rs: timestamp_convert"]}
{"id": "C06", "title": "Integer columns read back exactly what was written", "statement": "Any sequence of i64 (or u64) column values with any pattern of nulls, encoded for a data page and decoded again, yields the same values at the same row positions.", "quantifier": "all sequences of 64-bit values of any length and all null patterns", "why_tests_cant": "The encoder chooses among run-length, bit-packed and raw forms depending on the data; round trip must hold for every value sequence including those whose differences overflow.", "anchors": ["tskv/src/tsm/codec/integer.rs", "tskv/src/tsm/codec/unsigned.rs", "tskv/src/tsm/codec/simple8b.rs"]}
{"id": "C07", "title": "Timestamp columns read back exactly what was written", "statement": "Any sequence of i64 timestamps (with any null pattern the column allows) encoded for a data page with the delta-timestamp codec and decoded again yields the same values at the same row positions.", "quantifier": "all sequences of i64 values of any length, all null patterns", "why_tests_cant": "Scaling by powers of ten, run-length and bit-packing choices depend on all values at once; a null in the first row exercises a special path.", "anchors": ["tskv/src/tsm/codec/timestamp.rs", "tskv/src/tsm/codec/simple8b.rs", "common/models/src/codec.rs"]}
{"id": "C08", "title": "Boolean columns read back exactly what was written", "statement": "Any sequence of booleans with any null pattern, bit-packed for a page and decoded again, yields the same values at the same rows.", "quantifier": "all boolean sequences of any length and all null patterns", "why_tests_cant": "Length prefixes and partially filled bytes must be right for every length.", "anchors": ["tskv/src/tsm/codec/boolean.rs"]}
{"id": "C09", "title": "Float columns read back exactly what was written", "statement": "Any sequence of 64-bit floats that the encoder accepts, XOR-compressed and decoded again, yields bit-identical values at the same rows; a sequence the encoder cannot represent is rejected instead of being silently changed.", "quantifier": "all sequences of 64-bit patterns, all null patterns", "why_tests_cant": "The window of leading/trailing zero bits carried from value to value makes the bit stream depend on the whole history of values.", "anchors": ["tskv/src/tsm/codec/float.rs"]}
{"id": "C10", "title": "Bit-packing of small integers is lossless and total", "statement": "Packing any list of integers below 2^60 succeeds and unpacking returns exactly that list; a list containing an integer of 2^60 or more is rejected.", "quantifier": "all lists of u64", "why_tests_cant": "The selector chosen depends on run lengths of ones and on joint magnitudes of the next values; every list must round-trip.", "anchors": ["tskv/src/tsm/codec/simple8b.rs: encode, decode"]}
{"id": "C11", "title": "In-memory reads return the latest write of each column at each timestamp", "statement": "After any sequence of writes to a series held in memory, reading the series yields one row per distinct written timestamp, in increasing time order, whose value for each column is the most recently written non-null value.", "quantifier": "all sequences of write batches, all schema versions, all timestamps", "why_tests_cant": "The result depends on duplicates inside and across batches and on schema-version grouping; tests cover a few orders.", "anchors": ["tskv/src/mem_cache/series_data.rs: SeriesData::write, SeriesDedupMergeSortIterator", "tskv/src/mem_cache/row_data.rs: OrderedRowsData", "tskv/src/mem_cache/memcache.rs: MemCache::{write_group,read_series_data,to_chunk_group}"]}
{"id": "C12", "title": "Deleting from memory removes exactly the rows in the given time ranges", "statement": "Deleting time ranges of given series from the in-memory data removes every row of those series whose timestamp is in a range, and changes no other row and no other series.", "quantifier": "all cache contents, series sets and time ranges", "why_tests_cant": "Guards on cached ranges and in-place filtering must hold for any content.", "anchors": ["tskv/src/mem_cache/memcache.rs: MemCache::delete_series_by_time_ranges, drop_columns", "tskv/src/mem_cache/series_data.rs: SeriesData::delete_by_time_ranges, delete_series"]}
{"id": "C13", "title": "Record files return every appended record, in order, unmodified", "statement": "Reading a record file to its end returns exactly the records that were appended, with their type, version and bytes, in order.", "quantifier": "all sequences of records of any type and content", "why_tests_cant": "Record content may itself contain the magic number or look like a header, and empty records sit at boundaries; the property ranges over all byte strings.", "anchors": ["tskv/src/record_file/writer.rs: Writer::write_record", "tskv/src/record_file/reader.rs: Reader::{read_record,find_record_header}", "tskv/src/record_file/record.rs"]}
{"id": "C14", "title": "A torn or corrupted tail never invents, alters or reorders log records", "statement": "If a crash leaves any prefix of the bytes of the last append in a record file, reading the file returns all earlier records unchanged and then ends or reports an error; it does not crash and does not return bytes that were not written as a record.", "quantifier": "all record sequences, all crash offsets inside the last record, and re-opening and appending after the crash", "why_tests_cant": "Every byte offset of every record content is a distinct crash point.", "anchors": ["tskv/src/record_file/reader.rs", "tskv/src/record_file/writer.rs", "tskv/src/wal/reader.rs: WalReader::next_wal_entry"]}
{"id": "C15", "title": "The replicated-log storage behaves as a contiguous indexed log", "statement": "After any sequence of appends, conflict truncations and purges, reading a range of indices returns exactly the entries a simple list-with-offset log would hold for those indices.", "quantifier": "all interleavings of append, delete-from-index, purge-before-index and reads; any file rolling points", "why_tests_cant": "Entries are spread over several files and a bounded cache whose contents depend on the whole history.", "anchors": ["tskv/src/wal/wal_store.rs: RaftEntryStorageInner::{mark_write_wal,mark_delete_before,mark_delete_after,entries_from_cache,read_raft_entry*}", "tskv/src/wal/wal_store.rs: WalFileMeta", "common/cache/src/circular_kvcache.rs"]}
{"id": "C16", "title": "The log reports its true last entry", "statement": "Whenever the replicated log holds at least one entry, asking for the last entry returns the entry with the highest index.", "quantifier": "all histories of appends, truncations and purges", "why_tests_cant": "Only histories that truncate past the cache window expose the difference.", "anchors": ["tskv/src/wal/wal_store.rs: RaftEntryStorageInner::wal_last_entry, mark_delete_after", "replication/src/node_store.rs: get_log_state"]}
{"id": "C17", "title": "Acknowledged log entries survive a restart", "statement": "Every log entry that was appended and synced before a crash and not truncated afterwards is still in the log after recovery, whether or not it had been applied.", "quantifier": "all histories of appends and applies, all crash points", "why_tests_cant": "It is about every crash point between append and apply.", "anchors": ["tskv/src/wal/wal_store.rs: RaftEntryStorageInner::recover", "tskv/src/wal/wal_store.rs: RaftEntryStorage::recover"]}
{"id": "C18", "title": "A series keeps one id, and two series never share one", "statement": "Within a vnode, repeatedly registering series keys in any order assigns each distinct key a unique id, always returns the same id for the same key, and looking an id up returns its key; this continues to hold across cache flushes.", "quantifier": "all sequences of registrations, deletions, flushes and lookups", "why_tests_cant": "It must hold for any operation history and any hash collisions between keys.", "anchors": ["tskv/src/index/ts_index.rs: TSIndex::{add_series_if_not_exists,get_series_id,get_series_key,del_series_info,check_to_flush}", "tskv/src/index/cache.rs: ForwardCache"]}
{"id": "C19", "title": "Tag queries on the index return exactly the matching series", "statement": "Looking up series of a table by tag equality conditions returns exactly the ids of live registered series of that table whose tags satisfy all conditions.", "quantifier": "all registered series sets, table names, tag keys and values", "why_tests_cant": "Index keys are concatenated strings without escaping, and collisions depend on particular names and values.", "anchors": ["tskv/src/index/ts_index.rs: encode_inverted_index_key, get_series_ids_by_domains", "tskv/src/index/cache.rs: IndexMemCache::get_inverted_by_tags"]}
{"id": "C20", "title": "Stored index keys identify their series uniquely", "statement": "Two different series (table name and tag list) are never stored under the same index key.", "quantifier": "all table names, tag keys and values", "why_tests_cant": "Injectivity of an encoding quantifies over all pairs of series.", "anchors": ["tskv/src/index/ts_index.rs: encode_series_key, encode_series_id_key", "common/models/src/series_info.rs: SeriesKey"]}
{"id": "C21", "title": "Merging sorted inputs yields one row per timestamp with last-writer values", "statement": "Merging any number of time-sorted streams produces rows in strictly increasing time order covering exactly the input timestamps, where each column takes the last non-null value in stream order, whatever the batch size.", "quantifier": "all numbers of streams, stream contents and batch sizes", "why_tests_cant": "The tournament tree and batch boundaries depend on all interleavings of timestamps.", "anchors": ["tskv/src/reader/sort_merge.rs: SortMergeAdapter, SortPreservingMergeStream", "tskv/src/reader/batch_builder.rs: BatchMergeBuilder"]}
{"id": "C22", "title": "A query returns the most recently written value", "statement": "A query returns, for each timestamp and column, the value of the latest write that preceded it, no matter which flushes and compactions ran in between.", "quantifier": "all histories of writes, flushes, compactions and queries", "why_tests_cant": "Only particular interleavings of write, flush and compaction expose the wrong precedence.", "anchors": ["tskv/src/reader/iterator.rs", "tskv/src/reader/merge.rs: DataReference ordering", "tskv/src/compaction/flush.rs", "tskv/src/compaction/compact.rs", "tskv/src/tsfamily/tseries_family.rs: switch_to_immutable", "tskv/src/tsfamily/super_version.rs"]}
{"id": "C23", "title": "Filtering gives the same result as filtering the merged rows", "statement": "The result of a query with a WHERE clause equals the result of the same query without it, restricted to rows satisfying the clause.", "quantifier": "all overlapping chunk contents and all predicates", "why_tests_cant": "Depends on how versions of a row are spread over files and memory for every predicate.", "anchors": ["tskv/src/reader/filter.rs: DataFilter", "tskv/src/reader/iterator.rs: build_chunk_reader, build_series_reader", "tskv/src/reader/utils.rs: reassign_predicate_columns"]}
{"id": "C24", "title": "Chunks that overlap in time are always merged together", "statement": "When a series is read, any two data chunks whose time ranges share an instant are placed in the same merge group, groups are disjoint in time and ordered, and no chunk is lost or duplicated.", "quantifier": "all lists of chunks with arbitrary time ranges", "why_tests_cant": "It is a statement about every arrangement of intervals.", "anchors": ["tskv/src/reader/utils.rs: group_overlapping_segments", "tskv/src/compaction/compact.rs: merge groups"]}
{"id": "C25", "title": "Compaction does not change what a query sees", "statement": "Replacing a set of files by their compaction leaves the merged content (latest value per column and timestamp, minus deleted rows) unchanged.", "quantifier": "all file contents, overlap patterns and tombstones", "why_tests_cant": "Depends on all arrangements of blocks across files.", "anchors": ["tskv/src/compaction/compact.rs: CompactState, CompactMerger", "tskv/src/compaction/picker.rs"]}
{"id": "C26", "title": "After a restart the set of live data files is the one before the crash", "statement": "Replaying the summary log reconstructs exactly the set of live files (with their levels and sequence numbers) produced by the edits that were recorded, including after the log was rewritten.", "quantifier": "all sequences of version edits and rewrites, all crash points between records", "why_tests_cant": "Any prefix of the log is a possible crash state.", "anchors": ["tskv/src/tsfamily/summary.rs: Summary::{recover_version,apply_version_edit,rewrite_summary_file}", "tskv/src/tsfamily/version.rs: Version::copy_apply_version_edits, VersionEdit::{encode_vec,decode_vec}"]}
{"id": "C27", "title": "Recorded deletions are remembered exactly", "statement": "After any sequence of deletions recorded against a file, reloading its tombstones gives, for each column, exactly the union of the deleted ranges; compacting the tombstones does not change it.", "quantifier": "all sequences of tombstone records", "why_tests_cant": "Merging, skipping and compaction of ranges interact over arbitrary sequences.", "anchors": ["tskv/src/tsm/tombstone.rs: TsmTombstone, TsmTombstoneCache::{insert,insert_batch,compact,load_from}"]}
{"id": "C28", "title": "Deleted rows stay deleted under concurrent flush and compaction", "statement": "Once a DELETE has been acknowledged, no later query returns a row it removed unless it was written again, whatever flushes or compactions were in progress.", "quantifier": "all interleavings of delete with the steps of flush and compaction", "why_tests_cant": "It is a statement about schedules.", "anchors": ["tskv/src/vnode_store.rs: delete", "tskv/src/compaction/flush.rs", "tskv/src/compaction/job.rs", "tskv/src/tsfamily/super_version.rs: add_tombstone"]}
{"id": "C29", "title": "A file's series filter never hides a series that is in the file", "statement": "If a series was added to a file's membership filter, testing for it returns true, also after the filter is saved and reloaded.", "quantifier": "all insert sequences, all keys, all hash functions and filter sizes", "why_tests_cant": "No-false-negatives is a statement over all keys and hash functions.", "anchors": ["common/utils/src/bloom_filter.rs"]}
{"id": "C30", "title": "The rate limiter never grants more than its configured budget", "statement": "Over any window of time, the total number of units granted by the limiter is at most its maximum balance plus the refills due in the window; the balance never exceeds the maximum.", "quantifier": "all request sequences and clock readings", "why_tests_cant": "It ranges over all arrival patterns.", "anchors": ["common/limiter_bucket/src/rate_bucket.rs"]}
{"id": "C31", "title": "Bounded in-memory log cache is a FIFO map of its most recent entries", "statement": "After any sequence of puts, gets and truncations, the cache holds exactly the most recent entries (up to its capacity) of the sequence that were not deleted.", "quantifier": "all operation sequences and capacities", "why_tests_cant": "Wrap-around of the ring depends on the whole history.", "anchors": ["common/cache/src/circular_kvcache.rs"]}
{"id": "C32", "title": "Memory accounting never exceeds the limit through the checked path", "statement": "If every reservation goes through the fallible path, the reserved total never exceeds the configured limit, and after all reservations are released the total is zero.", "quantifier": "all interleavings of atomic reserve/release steps by any number of clients", "why_tests_cant": "Depends on schedules.", "anchors": ["common/memory_pool/src/lib.rs: GreedyMemoryPool"]}
{"id": "C33", "title": "Every timestamp belongs to the time bucket created for it", "statement": "The bucket created for a write at time ts covers ts, has the configured duration, and buckets of one duration never overlap.", "quantifier": "all i64 timestamps and durations", "why_tests_cant": "Sign changes and saturation at the ends of i64 matter.", "anchors": ["common/models/src/meta_data.rs: get_time_range", "meta/src/store/storage.rs: process_create_bucket"]}
{"id": "C34", "title": "A query's time range reaches every bucket holding matching rows", "statement": "For every row stored in the bucket that covers its timestamp, a query whose time range includes the timestamp visits that bucket; and each row is routed to exactly one replica set.", "quantifier": "all bucket lists, timestamps and query ranges", "why_tests_cant": "All interval positions, including shared boundaries.", "anchors": ["common/models/src/meta_data.rs: DatabaseInfo, BucketInfo::vnode_for, mapping_bucket, bucket_by_timestamp", "common/models/src/meta_data.rs: allocation_replication_set"]}
{"id": "C35", "title": "Privileges behave as an order", "statement": "Holding a stronger privilege authorises everything a weaker one authorises; granting a privilege never removes access; revoking a privilege never adds access.", "quantifier": "all privileges, roles, and sequences of grants and revokes", "why_tests_cant": "Order laws and monotonicity range over all combinations and histories.", "anchors": ["common/models/src/auth/privilege.rs", "common/models/src/auth/role.rs: CustomTenantRole::{grant_privilege,revoke_privilege}"]}
{"id": "C36", "title": "Dropping a user, role, database or tenant removes everything that belongs to it", "statement": "After dropping a user, role, database or tenant, no metadata of it remains, so that creating a new object with the same name starts without inherited members, privileges, tables or buckets.", "quantifier": "all histories of metadata commands", "why_tests_cant": "Only particular histories with re-creation reveal leftovers.", "anchors": ["meta/src/store/storage.rs: process_drop_user, process_drop_role, process_drop_db, process_drop_tenant", "meta/src/store/key_path.rs"]}
{"id": "C37", "title": "Replicas of the metadata service that apply the same commands have the same state", "statement": "Any two metadata replicas that apply the same sequence of commands end in the same state.", "quantifier": "all command sequences, all environments (clocks, reachability, random ids)", "why_tests_cant": "The environment differs between replicas at run time; a test on one machine never sees it.", "anchors": ["meta/src/store/storage.rs: process_write_command, process_create_bucket, process_create_role, process_limiter_request"]}
{"id": "C38", "title": "Metadata watchers see every change or are told to resynchronise", "statement": "A client that repeatedly asks for changes after the last version it saw either receives every change to the tenants it watches exactly once and in order, or is told to perform a full resynchronisation.", "quantifier": "all histories of metadata writes and client polls", "why_tests_cant": "Depends on ring-buffer truncation relative to all client positions.", "anchors": ["meta/src/store/storage.rs: insert, remove, read_change_logs", "meta/src/store/command.rs: Watch, WatchData"]}
{"id": "C39", "title": "Line-protocol text is parsed to the point it denotes", "statement": "For every table name, tag set, field set and timestamp, writing the point in line protocol with the documented escaping and parsing it returns the same point; several points separated by newlines parse to the same list.", "quantifier": "all names, values and timestamps", "why_tests_cant": "Escapes and separators can occur anywhere in any name or value.", "anchors": ["common/protocol_parser/src/line_protocol/parser.rs"]}
{"id": "C40", "title": "Packed field ids split back into their parts", "statement": "Packing a column id and a series id into one 64-bit field id and splitting it again returns both parts; distinct pairs get distinct field ids.", "quantifier": "all 32-bit pairs", "why_tests_cant": "2^64 pairs.", "anchors": ["common/models/src/utils.rs: unite_id, split_id"]}
{"id": "C41", "title": "Windowed grouping assigns every row to the windows that contain it", "statement": "For a window of any size, slide and origin, each timestamp is assigned to exactly those windows whose start is at most the timestamp and whose end is after it.", "quantifier": "all i64 timestamps, window sizes, slides and start offsets", "why_tests_cant": "Floor arithmetic on negative values and slides not dividing sizes.", "anchors": ["query_server/query/src/extension/analyse/transform_time_window.rs", "query_server/query/src/extension/expr/window/time_window.rs"]}
{"id": "C42", "title": "Timestamp precision conversion is exact where representable", "statement": "Converting a timestamp from a finer to a coarser precision and back never changes it if it was a multiple of the coarser unit; from a coarser to a finer one either fails or is exact; conversions preserve order.", "quantifier": "all i64 timestamps and precision pairs", "why_tests_cant": "All i64 values including overflow limits.", "anchors": ["common/utils/src/precision.rs: timestamp_convert", "common/utils/src/duration.rs: CnosDuration"]}
{"id": "C43", "title": "The replicated state machine's log contract holds", "statement": "The log storage given to the consensus library satisfies its contract: after appending entries they are readable; after truncating from an index none at or above it is readable; after purging up to an index none at or below it is readable and the reported last id is never lower than the last purged id.", "quantifier": "all histories of append, truncate, purge", "why_tests_cant": "The contract ranges over all histories.", "anchors": ["replication/src/node_store.rs", "replication/src/state_store.rs"]}
{"id": "C44", "title": "Data pages read back exactly the column that was written", "statement": "A column of any type (time, integer, unsigned, float, boolean, string), with any pattern of nulls and any codec configured for it, that is written as a data page is read back from the page's bytes with the same value or null in every row.", "quantifier": "all columns of every type and length, all null patterns, all codec settings", "why_tests_cant": "The page combines a bitmap, a length header, a checksum and one of a dozen codecs chosen by schema and data; every combination of codec, type, null pattern and value sequence must survive.", "anchors": ["tskv/src/tsm/page.rs", "tskv/src/tsm/codec/instance.rs", "tskv/src/tsm/codec/string.rs", "common/models/src/codec.rs"]}
{"id": "C45", "title": "A replica built from a snapshot answers like its source", "statement": "After a replica was rebuilt from a snapshot of another replica, every query over the data of the snapshot has the same answer on both: no deleted row comes back, no overwritten value replaces its successor, no row is lost.", "quantifier": "all sets of data files on all levels, with any overlap in time, any tombstones and any file ids", "why_tests_cant": "File ids are assigned again and decide which version of a row wins; whether the order survives depends on every combination of levels, ids and overlaps.", "anchors": ["tskv/src/vnode_store.rs: VnodeStorage::{create_snapshot,apply_snapshot}", "tskv/src/database.rs: Database::add_tsfamily", "tskv/src/tsfamily/version.rs: CompactMeta::rename_file", "coordinator/src/raft/mod.rs: download_snapshot_files"]}
{"id": "C46", "title": "Ids of buckets, replica sets and vnodes are never shared or reused", "statement": "Every bucket, replica set and vnode of a cluster has its own id: no two of them share one at any moment, an id of something that was deleted is not given to anything created later, and ids reserved by a client stay unused until that client uses them.", "quantifier": "all histories of metadata commands, in any order, over any number of tenants and databases, with clients that add a reserved id once", "why_tests_cant": "Vnode data directories, raft groups and files are named by these ids; a collision needs a particular interleaving of bucket creation, deletion, reservation and membership change.", "anchors": ["meta/src/store/storage.rs: StateMachine::{fetch_and_add_incr_id,process_create_bucket,process_update_replication_set,process_retain_id}", "meta/src/store/command.rs: WriteCommand::{RetainID,CreateBucket,UpdateVnodeReplSet}", "coordinator/src/raft/manager.rs: RaftNodesManager::add_follower_to_group"]}
{"id": "C47", "title": "A metadata command changes only what it names, all or nothing, and its result can be read back", "statement": "A command about one object changes nothing else: in particular a command about one tenant leaves every other tenant's databases, tables, roles and members as they were. A refused command changes nothing. After an acknowledged command the object is stored as requested (created objects did not exist before, altered ones did), and a dropped object is gone.", "quantifier": "all histories of metadata commands, all commands, all names", "why_tests_cant": "Keys are strings joined with '/' and searched by prefix; whether one name's keys can be hit by a command about another depends on all names.", "anchors": ["meta/src/store/storage.rs: StateMachine::process_*", "meta/src/store/key_path.rs: KeyPath"]}
{"id": "C48", "title": "No table change is lost and at most one node runs background tasks", "statement": "Of two ALTER TABLE commands made from the same version of a table at most one is acknowledged while the table exists. At any moment at most one node holds the right to run background tasks, it keeps it until it is released in its name, and a request for it succeeds exactly if nobody holds it.", "quantifier": "all histories of metadata commands, any interleaving of any number of clients", "why_tests_cant": "Both are races: they show only for particular interleavings of commands of several nodes.", "anchors": ["meta/src/store/storage.rs: StateMachine::{process_update_table,process_write_resourceinfos_mark,process_add_date_node}", "query_server/query/src/dispatcher/manager.rs: SimpleQueryDispatcher"]}
{"id": "C49", "title": "Aggregates do not depend on how rows are split into partitions and batches", "statement": "FIRST, LAST, MODE, INCREASE, GAUGE_AGG and the data quality functions return what their definition gives for the whole set of rows, in whatever partitions and batches the rows are processed and in whatever order partial results arrive.", "quantifier": "all row sets, all divisions into partitions and batches, all arrival orders, all ties of the sorts", "why_tests_cant": "The division is chosen by the planner from file and memory layout; unit tests feed one or two batches.", "anchors": ["query_server/query/src/extension/expr/aggregate_function/first.rs: FirstAccumulator", "query_server/query/src/extension/expr/aggregate_function/last.rs: LastAccumulator", "query_server/query/src/extension/expr/aggregate_function/mode.rs: ModeAccumulator", "query_server/query/src/extension/expr/aggregate_function/increase.rs: IncreaseAccumulator", "query_server/query/src/extension/expr/aggregate_function/gauge/gauge_agg.rs: GaugeDataBuilder", "query_server/query/src/extension/expr/aggregate_function/data_quality/accumulator.rs: DataQualityAccumulator"]}
{"id": "C50", "title": "SAMPLE returns the asked number of distinct rows of the input, any of them possible", "statement": "SAMPLE(x, n) returns min(n, number of rows) rows of the input, no row twice, whatever the partitions, batches and random numbers.", "quantifier": "all row sets, all n, all divisions into partitions and batches, all random draws", "why_tests_cant": "The result is random and depends on the batches; a test sees one draw.", "anchors": ["query_server/query/src/extension/expr/aggregate_function/sample.rs: SampleAccumulator::{sample_data,sample_state,try_compact_state,update_batch_inner}"]}
{"id": "C51", "title": "STATE_AGG answers how long and when a state held", "statement": "DURATION_IN gives the number of time units during which the state held (in total, from a time on, within an interval) and STATE_AT the state that held at a time, where a row sets the state until the next row.", "quantifier": "all sets of rows with distinct times, all divisions into partitions and batches, all states, times and intervals, all hash map orders", "why_tests_cant": "Overlaps of intervals and states have many shapes; the order of rows and of the map varies from run to run.", "anchors": ["query_server/query/src/extension/expr/aggregate_function/state_agg/state_agg_data.rs: StateAggData::{handle_record,duration_in,state_at,try_from}", "query_server/query/src/extension/expr/aggregate_function/state_agg/state_agg_accumulator.rs: StateAggAccumulator", "query_server/query/src/extension/expr/scalar_function/duration_in.rs", "query_server/query/src/extension/expr/scalar_function/state_at.rs"]}
{"id": "C52", "title": "A replica has applied every agreed entry up to its applied index exactly once and in order", "statement": "After any history of appends, truncations, purges, applications, flushes, snapshot installations, crashes and restarts, a replica holds the state that results from applying the agreed entries up to the index it reports as applied, each once and in order.", "quantifier": "all engines and commands, all agreed sequences, all histories, all crash points", "why_tests_cant": "Crashes between recording an index and applying an entry hit windows of microseconds; a test cannot place them all.", "anchors": ["replication/src/node_store.rs: NodeStorage::{apply_to_state_machine,apply_snapshot,append_to_log,delete_conflict_logs_since,purge_logs_upto}", "tskv/src/wal/wal_store.rs: RaftEntryStorage::recover, recover_record", "coordinator/src/raft/manager.rs: open_vnode_storage", "meta/src/store/storage.rs: StateMachine as ApplyStorage"]}
{"id": "C53", "title": "The consensus state of one replica group is never mixed with that of another", "statement": "All groups of a node share one key-value store. Every read of a group's vote, applied index, purged index, snapshot or membership returns what was last written for this group since it was last deleted; deleting a group removes all of its keys and no other's; a snapshot is given the membership in force at its index although older memberships are cleared; after a restart exactly the groups with a summary are found.", "quantifier": "all histories of reads, writes, clearings and deletions over all group numbers and indexes, all hash map orders", "why_tests_cant": "Collisions depend on decimal digits of group ids and prefixes; tests use a handful of ids.", "anchors": ["replication/src/state_store.rs: Key, StateStorage", "replication/src/node_store.rs: get_snapshot_membership, get_snapshot_meta"]}
{"id": "C54", "title": "No file takes part in two compactions at once", "statement": "Whatever is flushed, picked for compaction, finished, failed and restarted, no file is input of two running compactions; a compaction takes only files of the vnode that no other compaction holds, from the levels and in the amount the settings say; and a file that is held is released when its compaction ends.", "quantifier": "all versions, marks, settings and histories of flushes, picks, ends of compactions and restarts", "why_tests_cant": "The overlap of compactions depends on timing; tests pick once from a hand-made version.", "anchors": ["tskv/src/compaction/picker.rs: pick_compaction, LevelCompactionPicker, DeltaCompactionPicker, advise_out_level", "tskv/src/tsfamily/column_file.rs: mark_compacting", "tskv/src/tsfamily/version.rs: unmark_compacting_files"]}
{"id": "C55", "title": "What is written to a data file is read back", "statement": "A data file accepts blocks of pages in time order per series; opening it gives back for every series its table, key and blocks, for every block its time range and exactly its pages, the newest schema of every table and the time range of the file. Copying blocks as raw bytes is the same as writing their pages. Updates of tag values change only the keys of the named series, whatever the compression of the metadata and wherever a crash falls.", "quantifier": "all histories of writes to a file, both metadata settings, all pages, all histories of tag updates", "why_tests_cant": "The layout depends on all sizes and orders of writes; tests write one or two series with default settings.", "anchors": ["tskv/src/tsm/writer.rs: TsmWriter::write_pages, write_raw, finish, update_file_meta_data", "tskv/src/tsm/reader.rs: TsmReader::open, read_series_pages, read_datablock_raw", "tskv/src/tsm/chunk.rs", "tskv/src/tsm/column_group.rs", "tskv/src/tsfamily/column_file.rs: update_tag_value"]}
{"id": "C56", "title": "Every point of a request is stored under its table, tags, fields and time", "statement": "When a write request is acknowledged, the rows handed to storage are its points, each exactly once, with its own table, tag values, field values and its time in the table's precision; all points of a series come in one group; nothing is attached to another point, dropped or changed. Writing the request again from the log after a restart gives the same rows.", "quantifier": "all requests (any number of tables, points, tags and fields, in any order, with missing values), all schemas, strict and lax databases, replays", "why_tests_cant": "Points are transposed into columns with validity bits, matched to schema columns by name, placed by column id and grouped by series; a slip shows only for particular mixes of missing values and orders.", "anchors": ["common/protocol_parser/src/lines_convert.rs: line_to_batches", "common/models/src/mutable_batch.rs: MutableBatch, MutableColumn", "tskv/src/database.rs: build_write_group, build_row_data, build_index, FbSchema::from_fb_column", "tskv/src/mem_cache/row_data.rs: RowData::point_to_row_data", "common/models/src/series_info.rs: SeriesKey::build_series_key", "tskv/src/vnode_store.rs: VnodeStorage::write"]}
{"id": "C57", "title": "A column id means one column for ever", "statement": "Every version of a table's schema has columns with different ids and names; an id keeps its type, and its name unless the column is renamed, in all versions; a writer that adds columns uses ids the metadata has given to exactly these columns, so that its values are read under the names they were written with at any later time, whatever other writers and ALTER TABLE statements do at the same time.", "quantifier": "all histories of write requests and ALTER TABLE ADD/DROP/RENAME COLUMN by any number of nodes with caches of any age, all interleavings of their requests to the metadata", "why_tests_cant": "The outcome depends on which cached version each node held and in which order the requests reached the metadata.", "anchors": ["tskv/src/schema/schemas.rs: DBschemas::check_field_type_or_else_add", "common/models/src/schema/tskv_table_schema.rs: add_column, drop_column, change_column, build_fields_ids", "meta/src/store/storage.rs: process_create_table, process_update_table", "query_server/query/src/execution/ddl/alter_table.rs", "query_server/query/src/sql/planner.rs: alter table", "meta/src/model/meta_tenant.rs: update_table, get_table_schema"]}
{"id": "C58", "title": "Compaction keeps every value of every column when the schema has changed", "statement": "After columns were added to, renamed in or dropped from a table, compacting any of its data files, again and again, changes nothing a query sees: for every series and time stamp left, every column has the value it had in the newest of the files that has one.", "quantifier": "all sets of data files with blocks written under any versions of the schema, all overlaps, tombstones, block sizes, output ranges, and sequences of flushes and compactions", "why_tests_cant": "The loss needs a particular order of writes of several series, a schema change, flushes and compactions; the files all look well-formed.", "anchors": ["tskv/src/compaction/compact.rs: CompactIterator, CompactTask, compact_files", "tskv/src/compaction/comapcting_block_meta_group.rs: CompactingBlockMetaGroup::merge_with_previous_block", "tskv/src/compaction/compacting_block_meta.rs: CompactingBlockMeta", "tskv/src/compaction/utils.rs", "tskv/src/tsm/writer.rs: insert_schema, write_raw, write_record_batch", "tskv/src/compaction/flush.rs", "tskv/src/mem_cache/series_data.rs: convert_to_page"]}
{"id": "C59", "title": "Queries over data written before schema changes return every row and value", "statement": "After columns were added, dropped or renamed, a query returns for data written earlier every row that satisfies its predicate, with the value each column had when it was written (a renamed column keeps its values, a column added later is null), and no query fails because of old data.", "quantifier": "all chunks with any columns, all projections and predicates, all later schemas, all page statistics pruning that is sound", "why_tests_cant": "Which rows a rewritten predicate loses depends on its shape, on which columns the file lacks and on what their names meant when it was written.", "anchors": ["tskv/src/reader/utils.rs: reassign_predicate_columns, PredicateColumnsReassigner, CombinedRecordBatchStream::try_new", "tskv/src/reader/schema_alignmenter.rs: build_schema_mapping, reorder_and_align_schema", "tskv/src/reader/column_group/mod.rs: ColumnGroupReader", "tskv/src/reader/chunk.rs: filter_column_groups", "tskv/src/reader/filter.rs: DataFilter", "tskv/src/reader/iterator.rs: build_chunk_reader, project_time_fields", "tskv/src/reader/mod.rs: Projection::from_schema, CombinedBatchReader"]}
{"id": "C60", "title": "A continuous query counts every row exactly once", "statement": "When a continuous (stream) query with GROUP BY writes the result of a group, the last result it wrote is the aggregate over exactly the rows the source table has for the group at the time of the run, each counted once, whatever was aggregated in earlier runs, and also when the server stopped in the middle of a run. A continuous query without aggregation writes each row of its source once.", "quantifier": "all queries, all histories of runs, failed runs, crashes (at any point of the output) and restarts, all contents of the table, all splits of a scan into partitions and batches", "why_tests_cant": "A row may be counted again because of the order in which the batches of one scan arrive, a retry or a restart at one particular moment; tests run one query over a few rows with one batch.", "anchors": ["query_server/query/src/execution/stream/mod.rs: execute, execute_once", "query_server/query/src/stream/watermark_tracker.rs: try_new, update_watermark, commit", "query_server/query/src/stream/offset_tracker/mod.rs: update_available_offset, available_offsets, commit", "query_server/query/src/stream/state_store/memory.rs", "query_server/query/src/extension/physical/plan_node/watermark.rs: compute_watermark", "query_server/query/src/extension/physical/plan_node/state_save.rs", "query_server/query/src/extension/physical/plan_node/state_restore.rs", "query_server/query/src/extension/physical/optimizer_rule/add_state_store.rs", "query_server/query/src/execution/stream/trigger/executor.rs", "query_server/query/src/data_source/stream/tskv/provider.rs: construct_filters, latest_available_offset"]}
{"id": "C61", "title": "No row is missed by a continuous query", "statement": "Every row that is written to the source of a continuous query, in time order or within the delay configured for the stream table, is part of the last result of its group (or is written, for a query without aggregation) after the next run that ends well.", "quantifier": "all queries, precisions, histories of runs, failed runs, crashes and restarts, all splits of a scan into partitions and batches", "why_tests_cant": "Whether a row is dropped depends on the watermark at the time it is aggregated, which depends on all earlier runs, their batches and their failures.", "anchors": ["query_server/query/src/execution/stream/mod.rs: execute, execute_once", "query_server/query/src/stream/watermark_tracker.rs: try_new, update_watermark, commit", "query_server/query/src/stream/offset_tracker/mod.rs: update_available_offset, available_offsets, commit", "query_server/query/src/stream/state_store/memory.rs", "query_server/query/src/extension/physical/plan_node/watermark.rs: compute_watermark", "query_server/query/src/extension/physical/plan_node/state_save.rs", "query_server/query/src/extension/physical/plan_node/state_restore.rs", "query_server/query/src/extension/physical/optimizer_rule/add_state_store.rs", "query_server/query/src/execution/stream/trigger/executor.rs", "query_server/query/src/data_source/stream/tskv/provider.rs: construct_filters, latest_available_offset"]}
{"id": "C62", "title": "A row is identified by its table, tags and time whichever interface wrote it", "statement": "Writing a row again, through any interface (line protocol, OpenTSDB, Prometheus remote write, log APIs, INSERT), with the same table, tags and time, overwrites the fields given: a query shows one row for a table, tags and time, holding for every field the last value written, also after tags were added or renamed or tag values updated.", "quantifier": "all tables, tags (in any order, some absent), histories of writes through all interfaces, ALTER TABLE and UPDATE, all numbers of replica sets per bucket", "why_tests_cant": "Replica sets do not compare rows with each other, so two requests for one row must always be routed to the same one; tests run with one replica set per bucket, where any routing works.", "anchors": ["common/protocol_parser/src/lib.rs: init_hash_id, init_ordered_hash_id, sort_dedup_and_hash", "common/utils/src/bkdr_hash.rs", "coordinator/src/service.rs: write_lines, write_record_batch, update_tags_value", "common/protocol_parser/src/json_protocol/parser.rs: parse_to_line", "common/models/src/meta_data.rs: vnode_for", "query_server/query/src/extension/logical/logical_plan_builder.rs"]}
{"id": "C63", "title": "A write or delete statement takes effect exactly when it says so", "statement": "A statement that writes or deletes takes effect in every replica set it concerns when it is answered with success, at most once in each, and in none of them when it is refused or the answer says that it was not started; it succeeds when the leader of the replica set is reachable, whichever replica the metadata takes for the leader.", "quantifier": "all replica sets, all replies of nodes (success, unreachable, another leader, error with or without effect), all changes of leader during the request", "why_tests_cant": "The interesting cases are answers lost between execution and reply while leadership moves; no test can produce all such interleavings.", "anchors": ["coordinator/src/tskv_executor.rs: do_request, redirect_request", "coordinator/src/raft/writer.rs: write_to_local, write_to_raft", "coordinator/src/errors.rs: encode_grpc_response, decode_grpc_response", "coordinator/src/service.rs: write_lines, write_record_batch, delete_from_table"]}
{"id": "C64", "title": "A query reads every replica set completely from one replica or fails", "statement": "A query that succeeds returns every row of every replica set it concerns exactly once, taken from one replica of each that is not marked broken, the leader if it is reachable; otherwise it fails. Rows acknowledged before the query are among them.", "quantifier": "all sets of replicas and their states, all replies of nodes at opening and during the stream, all limits", "why_tests_cant": "Depends on which of the replicas answer and when streams break off, in all combinations; a read that silently returns less is not seen by a test that does not know it should be more.", "anchors": ["coordinator/src/service.rs: table_vnodes", "coordinator/src/reader/mod.rs: CheckedCoordinatorRecordBatchStream", "coordinator/src/reader/table_scan/opener.rs", "query_server/query/src/data_source/split/mod.rs", "tskv/src/reader/iterator.rs: execute"]}
{"id": "C65", "title": "COUNT is the number of rows that SELECT shows", "statement": "SELECT count(*) and count(column) return the number of rows a SELECT of the same table shows, and of those where the column is not NULL, whether the rows are in memory or in files, were written once or overwritten, and whatever was deleted, flushed, renamed or added before.", "quantifier": "all schemas, series, contents of memory and files, deletions, and all forms of the query (literal, column, subquery, exact_count)", "why_tests_cant": "COUNT without WHERE is answered from metadata by a code path of its own, whose agreement with the read path depends on the whole history of the table.", "anchors": ["tskv/src/reader/pushdown_agg_reader.rs: PushDownAggregateReader", "tskv/src/reader/iterator.rs: build_chunk_reader, build_series_reader", "query_server/query/src/data_source/batch/tskv.rs: supports_aggregate_pushdown, create_agg_filter_scan", "query_server/query/src/extension/logical/optimizer_rule/push_down_aggregation.rs", "query_server/query/src/extension/analyse/transform_exact_count_to_count.rs"]}
{"id": "C66", "title": "A request does only what its user may do", "statement": "Every read, write, change and listing that an accepted request performs is one the privileges of the user allow, in the user's own tenant unless the user is an administrator; a request whose effects are all allowed is not refused for lack of privileges; an account that must change its password can do nothing else; only root changes root.", "quantifier": "all statements and HTTP requests, all users and roles, all contents of the catalog", "why_tests_cant": "The privileges each statement asks for, the names it resolves and the objects its executor touches are computed in different places; tests try a few statements with a few roles, not every statement with every set of privileges.", "anchors": ["query_server/query/src/sql/planner.rs: create_logical_plan, statement_to_plan, databases_privileges, show_tag_body, external_table_to_plan, alter_user_to_plan", "query_server/query/src/metadata/mod.rs: get_table_source, process_system_table_source", "query_server/query/src/metadata/information_schema_provider/factory/queries.rs: filter_running_queries", "query_server/query/src/execution/sys/kill_query.rs: KillQueryTask", "query_server/query/src/execution/ddl/create_external_table.rs: CreateExternalTableTask", "main/src/http/http_service.rs: construct_write_context_and_check_privilege, construct_read_context", "common/models/src/object_reference.rs: resolve_object"]}
{"id": "C67", "title": "Only valid credentials are accepted, and changes of them take effect", "statement": "A request is accepted only with credentials that are valid for a user of the tenant; after a password is changed, a user dropped, a privilege revoked or a member removed, requests with the old rights are refused, at the latest after the documented life of the cache.", "quantifier": "all histories of authentications (password, key pair, bearer token), changes of users, roles and members on any node, and all interleavings in time", "why_tests_cant": "What is accepted depends on caches whose entries were made before the change, on other nodes, or during it; tests authenticate on one node with fresh entries.", "anchors": ["query_server/query/src/instance.rs: authenticate", "common/models/src/auth/auth_cache.rs: AuthCache", "query_server/query/src/auth/auth_control.rs: AccessControlImpl", "main/src/flight_sql/auth_middleware/generated_bearer_token_authenticator.rs", "meta/src/model/meta_admin.rs: user_with_privileges"]}
{"id": "C68", "title": "SHOW SERIES and SHOW TAG VALUES list what is there, once", "statement": "SHOW SERIES lists the key of exactly the series of the table that the WHERE clause selects, each once, and different series have different keys; SHOW TAG VALUES lists exactly the pairs of a tag asked for and a value it has in a selected series, each once.", "quantifier": "all tables, all contents and their spread over vnodes, all WHERE clauses on tags and time, all WITH KEY clauses", "why_tests_cant": "The answer comes from the index or from the data depending on the WHERE clause, and part of the WHERE clause is dropped from the plan because the index is trusted to apply it; tests check a few conditions on small tables.", "anchors": ["query_server/query/src/sql/planner.rs: show_tag_body, check_show_series_expr, show_series_projection, show_tag_value_projections", "query_server/query/src/extension/logical/optimizer_rule/rewrite_tag_scan.rs: RewriteTagScan", "query_server/query/src/data_source/batch/tskv.rs: supports_filter_pushdown, push_down_projection, create_tag_scan_physical_plan", "query_server/query/src/extension/expr/expr_utils.rs: can_exact_filter", "tskv/src/reader/tag_scan.rs: LocalTskvTagScanStream", "tskv/src/index/ts_index.rs: get_series_ids_by_domains"]}
{"id": "C69", "title": "The limits of a tenant hold over all nodes", "statement": "The requests (or bytes) of a tenant that all nodes together let through in a period are bounded by the configured capacity, one refill per interval and a fixed amount per node; a request within the local maximum is let through as long as the tenant's budget is not used up; a request beyond it never is.", "quantifier": "all configurations, numbers of nodes, sequences and sizes of requests, clock readings, lost replies and restarts", "why_tests_cant": "The budget is split between the meta service and the nodes, which take units in advance and run up debts; the worst case arises from particular interleavings of nodes that tests do not try.", "anchors": ["meta/src/limiter/local_request_limiter.rs: require, remote_requre, check_bucket", "meta/src/limiter/remote_request_limiter.rs: RemoteRequestLimiter", "meta/src/store/storage.rs: process_limiter_request, set_tenant_limiter, process_alter_tenant", "common/limiter_bucket/src/count_bucket.rs: CountBucket", "meta/src/client.rs: try_send_to_leader"]}
{"id": "C70", "title": "Retention removes what is older than the TTL and nothing else", "statement": "An acknowledged row is returned by queries as long as it is not older than the TTL of its database; a write of such a row is never refused because of the TTL, a write of an older row is; rows older than the TTL by a bucket's duration disappear with the next scan, and the storage of a deleted bucket is freed on every node.", "quantifier": "all TTLs, precisions, bucket durations, numbers of shards, replicas and nodes, clock readings, and interleavings of writes, scans, partial deletions, restarts and metadata synchronisation", "why_tests_cant": "Deletion runs on every node with its own clock and its own copy of the metadata and can stop at any point; what is lost or left behind depends on the interleaving.", "anchors": ["coordinator/src/service.rs: db_ttl_service, delete_expired_bucket", "coordinator/src/raft/manager.rs: destory_replica_group", "meta/src/model/meta_tenant.rs: expired_bucket, create_bucket, locate_replication_set_for_write", "meta/src/store/storage.rs: process_create_bucket, process_delete_bucket, process_update_vnode_repl_set", "common/models/src/schema/database_schema.rs: time_to_expired", "replication/src/multi_raft.rs: MultiRaft"]}
{"id": "C71", "title": "A DROP, ALTER or UPDATE that is answered OK is carried out", "statement": "When DROP TABLE, DROP DATABASE, DROP TENANT (without a delay), ALTER TABLE or an UPDATE of tags is answered OK, its operation has been carried out after the statement was issued.", "quantifier": "all clusters, all statements, and all interleavings of their steps with each other, with background tasks, failures of operations, crashes and restarts", "why_tests_cant": "A statement gives way to a task of the same name it finds in the meta service, and still answers OK; whether it finds one depends on the interleaving and on earlier failures.", "anchors": ["coordinator/src/resource_manager.rs: add_resource_task, do_operator, retry_failed_task, change_and_write", "common/models/src/schema/resource_info.rs: ResourceInfo, ResourceStatus", "query_server/query/src/dispatcher/manager.rs: handle_meta_modify, exec_async_task", "query_server/query/src/execution/ddl/drop_database_object.rs", "query_server/query/src/execution/ddl/recover_database.rs", "query_server/query/src/execution/ddl/recover_tenant.rs", "query_server/query/src/execution/ddl/alter_table.rs", "meta/src/store/storage.rs: process_write_resourceinfo, process_resourceinfos_mark, process_add_date_node", "meta/src/model/meta_admin.rs"]}
{"id": "C72", "title": "A delayed DROP happens at its time unless recovered", "statement": "DROP DATABASE/TENANT ... AFTER d is carried out d after it was issued: not earlier, and not later or never unless it is taken back by RECOVER; once a RECOVER has been answered OK the object is not dropped by earlier statements.", "quantifier": "all delays, clocks, clusters, and interleavings of statements, watch notifications, background tasks, crashes, take-overs and restarts", "why_tests_cant": "The delay is a sleep in one node's memory, cancelled by a notification; the outcome depends on where a crash or a RECOVER falls between the steps.", "anchors": ["coordinator/src/resource_manager.rs: add_resource_task, do_operator, retry_failed_task, change_and_write", "common/models/src/schema/resource_info.rs: ResourceInfo, ResourceStatus", "query_server/query/src/dispatcher/manager.rs: handle_meta_modify, exec_async_task", "query_server/query/src/execution/ddl/drop_database_object.rs", "query_server/query/src/execution/ddl/recover_database.rs", "query_server/query/src/execution/ddl/recover_tenant.rs", "query_server/query/src/execution/ddl/alter_table.rs", "meta/src/store/storage.rs: process_write_resourceinfo, process_resourceinfos_mark, process_add_date_node", "meta/src/model/meta_admin.rs"]}
{"id": "C73", "title": "Prometheus remote read returns what remote write stored", "statement": "A remote-read query is answered with exactly the latest written samples, in the asked time range, of exactly the series whose labels satisfy all matchers (Prometheus semantics: a missing label is empty, regular expressions match the whole value): one series for each set of labels, samples in order of time.", "quantifier": "all histories of write requests, all queries: names, labels, values, matchers, times", "why_tests_cant": "The query is turned into SQL text and the answer regrouped by a joined text of the labels; which characters, labels, times or matchers break this is a question about all inputs.", "anchors": ["query_server/query/src/prom/remote_server.rs: prom_write_request_to_lines, build_sql_with_table, transform_time_series", "query_server/query/src/prom/time_series/writer.rs: Writer::apply, concat_labels", "query_server/query/src/prom/mod.rs", "query_server/query/src/sql/dialect.rs", "main/src/http/http_service.rs: prom_remote_read, prom_remote_write"]}
{"id": "C74", "title": "A dump of the catalog, restored, gives the catalog back", "statement": "The script written by dump-ddl, read by restore-dump-ddl into a new cluster, runs without an error and leaves exactly the same tenants, users, databases, roles, privileges, members and tables, with the same options and columns. The dump of one tenant adds exactly that tenant and its users.", "quantifier": "all catalogs, all names and options, all configured defaults of the receiving cluster, with and without error_stop", "why_tests_cant": "The script is text: it holds only if every name, comment, option and column survives quoting, the client's cutting at semicolons and lines, the parser and the order of the statements. Tests compare two dumps of one sample.", "anchors": ["meta/src/store/dump.rs: dump_impl, dump_tenant", "common/models/src/sql/mod.rs: ToDDLSql, create_table_sqls, role_to_sql, add_member_to_sql", "client/src/exec.rs: exec_from_lines, exec_and_print", "query_server/query/src/sql/parser.rs", "query_server/query/src/sql/planner.rs", "meta/src/service/init.rs"]}
{"id": "C75", "title": "Every record of a log request becomes one row with its own values", "statement": "A log request (bulk, line-separated JSON, Loki) is either turned down as a whole or gives exactly one row for each of its records, in their order. The row holds each value found in the record under the path that leads to it, the columns named as tags as tags, the time of the record, or the clock if it has none, and nothing else.", "quantifier": "all records of any depth and size, all tag column lists and time columns, all requests of any length", "why_tests_cant": "Nested records are flattened into names, so collisions and escapes depend on all keys together; tests use one flat record of each kind.", "anchors": ["common/protocol_parser/src/json_protocol/parser.rs: flatten_json, parse_json_to_eslog, parse_json_to_ndjsonlog, parse_protobuf_to_lokilog, parse_to_line", "main/src/http/http_service.rs: try_parse_log_req, coord_write_log"]}
{"id": "C76", "title": "Exported spans are shown by the Jaeger interface as they were", "statement": "Each span of an OpenTelemetry export request is stored as one row. Asked for the trace, the Jaeger interface shows exactly the spans of that trace, each with its own ids, name, kind, start, duration, status, attributes, events, links and service, whatever other spans were exported in the same request or into the same table.", "quantifier": "all requests with any number of resources, scopes and spans, all attributes, events and links, all column orders and sets of columns of the table", "why_tests_cant": "The row of a span depends on the spans before it in the request, and what is shown depends on the columns that other spans have created. A test with one span per request sees neither.", "anchors": ["common/protocol_parser/src/json_protocol/parser.rs: parse_protobuf_to_otlptrace, parse_to_line", "main/src/opentelemetry/otlp_to_jaeger.rs: recordbatch_to_span, to_jaeger_span_kind", "main/src/http/http_service.rs: write_otlp_trace, search_traces, get_trace, get_trace_inner"]}
{"id": "C77", "title": "timestamp_repair gives an evenly spaced series that differs as little as possible", "statement": "SELECT timestamp_repair(time, f) returns rows at evenly spaced instants. Each row has the value of one input row or none; input rows keep their order and none is used twice; the total of what was moved, added and left out is the least possible. A series that is already evenly spaced is returned unchanged, for every method and start mode.", "quantifier": "all series of rows, all methods, start modes and intervals, all orders in which hash maps are walked", "why_tests_cant": "Which rows are moved, added or left out is decided by a table over all pairs of input rows and instants; that the outcome is the cheapest one is a statement about all other repairs.", "anchors": ["query_server/query/src/extension/expr/ts_gen_func/data_repair/timestamp_repair.rs: timestamps_repair, dp_repair, getstart_mode, getstart_linear, get_interval_median, get_interval_mode, k_means_clustering", "query_server/query/src/extension/physical/plan_node/ts_gen_func/stream.rs: TSGenFuncStream", "query_server/query/src/extension/utils.rs: numeric_arr_as_f64_iter, f64_vec_to_numeric_arr", "query_server/query/src/extension/analyse/transform_ts_gen_func.rs: new_plan"]}
{"id": "C78", "title": "value_fill keeps the values that are there and puts the promised value where one is missing", "statement": "SELECT value_fill(time, f, 'method=m') returns one row for each input row with the same time. A value that was there is unchanged. A missing one becomes the mean of all values (mean), the value before it (previous), the one on the straight line between its neighbours (linear), the mean of the five rows around it (ma) or a prediction (ar). The call fails only when there is nothing to fill from.", "quantifier": "all series of rows, all patterns of missing values, all methods and column types", "why_tests_cant": "Which branch treats a missing value depends on the pattern of missing values on both sides of it, at any distance; a test has a few patterns.", "anchors": ["query_server/query/src/extension/expr/ts_gen_func/data_repair/value_fill.rs: compute, ValueFill, fill_mean, fill_previous, fill_linear, fill_ar, fill_ma", "query_server/query/src/extension/utils.rs: numeric_arr_as_f64_iter, f64_vec_to_numeric_arr"]}
{"id": "C79", "title": "value_repair keeps the speed of change within the limits and leaves slow series alone", "statement": "SELECT value_repair(time, f, 'method=screen&min_speed=a&max_speed=b') returns one row for each input row with the same time. A missing value is put on the straight line in time between its neighbours. From each row to the next the value changes at least by a and at most by b per unit of time; limits that are not given are the median speed plus and minus three scaled median deviations. A series that already changes within the limits is returned unchanged. Too few values are refused with a message.", "quantifier": "all series of rows, all patterns of missing values, all limits", "why_tests_cant": "Each value is the middle one of a list built from all rows of a window ahead, bounded by the value repaired before; that a slow series is a fixed point and that no step breaks the limits is a statement about all windows.", "anchors": ["query_server/query/src/extension/expr/ts_gen_func/data_repair/value_repair.rs: compute, value_repair, process_nan, screen, local, get_median, get_repaired_value, interval_median, mad, f64_median, speed", "query_server/query/src/extension/utils.rs: numeric_arr_as_f64_iter, f64_vec_to_numeric_arr"]}
{"id": "C80", "title": "Data quality scores measure what is missing, redundant, late or out of range", "statement": "completeness, consistency, timeliness and validity return a number from 0 to 1 that does not depend on the order of the rows. For a series with one row every d, completeness is the number of values that are there divided by the number of rows there should be, and nothing counts as redundant or late. Rows beyond one of the same time count as redundant. A constant series is fully valid. Every numeric column with two values or more gets an answer.", "quantifier": "all series of rows, all orders of arrival, all patterns of missing rows and values, all column types", "why_tests_cant": "Rows are judged in a moving window in which rows are removed while it is looked at; that the counts are right for every pattern of gaps, and never exceed the number of rows, needs an invariant of that window.", "anchors": ["query_server/query/src/extension/expr/aggregate_function/data_quality/common.rs: DataSeriesQuality, nan_process, time_detect, value_detect, findoutliers, speed, median, mad", "query_server/query/src/extension/expr/aggregate_function/data_quality/accumulator.rs: evaluate, scalar_to_f64"]}
{"id": "C81", "title": "Skipping blocks by their statistics never loses a row", "statement": "A query with a predicate skips blocks of a data file whose stored minimum and maximum show that no row can match. For every block written by a flush or a compaction, no value is outside of the stored minimum and maximum, and a block with a row that the predicate selects is read, whatever the other blocks of the file are.", "quantifier": "all columns of all types with any values and nulls, flushed or compacted, all predicates of comparisons, Boolean columns, AND and OR with any other operators in between, all sets of blocks", "why_tests_cant": "A lost row needs a value for which the running minimum or maximum and the comparison of the query disagree (NaN, -0.0, the starting values), or blocks with different columns; a test has to guess it.", "anchors": ["tskv/src/tsm/page.rs: arrow_array_to_page, colref_to_page, PageStatistics", "common/models/src/column_data_ref.rs: ColumnDataRef::new, push, push_ts", "tskv/src/mem_cache/series_data.rs: convert_to_page", "tskv/src/reader/column_group/statistics.rs: ColumnGroupsStatisticsWrapper", "tskv/src/reader/chunk.rs: filter_column_groups"]}
{"id": "C82", "title": "The limit of simultaneous statements, KILL QUERY and stream queries over restarts", "statement": "A node never works on more statements than max_server_connections, refuses one only when all slots are in use, and gets the slot back when the statement ends. KILL QUERY stops the query it names and no other, and a killed query stays killed. A stream query that was answered runs until it is killed, also over crashes and restarts.", "quantifier": "all limits, all sequences of statements, answers, failures of the meta service, clients that go away, kills, crashes and restarts, all interleavings of the steps of concurrent statements", "why_tests_cant": "A slot is lost or a kill undone only in certain interleavings (a client that leaves before the answer, a kill between listing and saving, a crash before the removal is carried out), which a test does not schedule.", "anchors": ["query_server/query/src/dispatcher/query_tracker.rs: try_track_query, save_query, expire_query, QueryExecutionTrackedProxy, TrackedRecordBatchStream", "query_server/query/src/dispatcher/manager.rs: execute_logical_plan, execute_persister_query", "query_server/query/src/dispatcher/persister.rs: MetaQueryPersister", "query_server/query/src/execution/sys/kill_query.rs: KillQueryTask", "query_server/query/src/execution/stream/mod.rs: MicroBatchStreamExecution", "query_server/query/src/execution/query.rs: SqlQueryExecution"]}
{"id": "C83", "title": "The files a query reads stay until it ends, and no longer", "statement": "A query that has begun can read every data file that was current when it began until it ends, whatever flushes, compactions and snapshots are carried out meanwhile, and reads that file and no other. Every file of the current version is on disk. A file that was compacted away is removed once no query needs it.", "quantifier": "all histories of flushes, compactions, queries that begin and end, applied snapshots, crashes and restarts, any number of concurrent queries", "why_tests_cant": "A file disappears only when a query outlives the compaction or snapshot that replaced it; tests do not schedule those overlaps.", "anchors": ["tskv/src/tsfamily/column_file.rs: ColumnFile, mark_deleted, Drop", "tskv/src/tsfamily/version.rs: copy_apply_version_edits", "tskv/src/tsfamily/summary.rs: apply_version_edit, recover", "tskv/src/tsfamily/tseries_family.rs: super_version, new_version", "tskv/src/vnode_store.rs: apply_snapshot", "tskv/src/database.rs: add_tsfamily, del_tsfamily_index"]}
{"id": "C84", "title": "Caches never answer stale values, stay within their capacity and evict the least recently used", "statement": "Whatever a cache answers for a key is the value last stored under it and not removed since. It never holds more entries than its capacity, which is the one asked for up to rounding. An entry survives as long as fewer other keys of its shard are used than the shard has room for, and evicting from a shard yields an entry not used since. Evicting from a cache that is not empty yields an entry.", "quantifier": "all hash functions, capacities and interleavings of stores, look-ups, removals, evictions, clearing and changes of capacity", "why_tests_cant": "A stale answer or a lost entry needs a particular order of uses and a particular spread of keys over the shards.", "anchors": ["common/cache/src/lib.rs: per_shard, shard", "common/cache/src/lru_cache/mod.rs: LruWrap", "common/cache/src/sharded_async_cache.rs: ShardedAsyncCache", "common/cache/src/sharded_sync_cache.rs: ShardedSyncCache"]}
{"id": "C85", "title": "The metrics of a server count every event once", "statement": "Each bucket of a reported histogram holds the number of observations not above its bound; the reported number and sum are those of all observations. A counter is the sum of what was added. An average is the average of what was added since the last report, and every value added shows in one report. The metrics interface and the system tables show the same.", "quantifier": "all thresholds, sequences of observations and interleavings of atomic accesses by concurrent tasks", "why_tests_cant": "A value on a bound, thresholds out of order, or an addition during a report are single points among all sequences and schedules.", "anchors": ["common/metrics/src/histogram.rs: U64HistogramOptions::new, record_multiple", "common/metrics/src/prom_reporter.rs: PromReporter::report", "common/metrics/src/count.rs: U64Counter", "common/metrics/src/average.rs: U64Average", "coordinator/src/metrics.rs: LPReporter::report"]}
{"id": "C86", "title": "Reports of metrics show every counter once, and the figures of every flush", "statement": "A report shows each counter that was ever added to, once, with the sum of what was added. The figures of a flush are shown exactly once, and the system tables have them all. No name comes twice in the text of the metrics page.", "quantifier": "all histories of additions, flushes and reports by either reader", "why_tests_cant": "Which reader comes first after a flush, and how many flushes fall between two reports, are matters of timing.", "anchors": ["common/metrics/src/metric_register.rs: metric, append_onetime, report", "common/metrics/src/metric.rs: recorder, report", "coordinator/src/service.rs: metrics_service", "main/src/http/http_service.rs: metrics", "tskv/src/tsfamily/tseries_family.rs: append_onetime"]}
