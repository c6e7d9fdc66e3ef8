{
 "claims": [
  {
   "property": "C01",
   "status": "partial",
   "theorems": [
    "C01_new_exact",
    "C01_push_partial",
    "C01_extend_partial",
    "C01_push_refuted",
    "C01_empty_range_refuted",
    "C01_includes_exact",
    "C01_overlaps_exact",
    "C01_intersect_exact",
    "C01_exclude_exact",
    "C01_exclude_many_exact",
    "C01_range_exclude_exact",
    "C01_exclude_closed",
    "C01_intersect_closed",
    "C01_range_minus_set_partial",
    "C01_range_minus_set_refuted",
    "C01_range_predicates",
    "C01_set_predicates"
   ],
   "note": "Exact for new/includes/overlaps/intersect/exclude. push/extend on a set whose hull is the whole time line drop the addition (C01_push_refuted); adding an empty range loses instants; range-minus-set keeps i64::MAX."
  },
  {
   "property": "C02",
   "status": "partial",
   "theorems": [
    "C02_delete_exact_partial",
    "C02_order_refuted",
    "C02_null_refuted",
    "C02_max_refuted",
    "C02_bound_refuted"
   ],
   "note": "Exact for conditions on one kind of column, or one group of tag conditions AND one group of time conditions, with no open/closed clash at one literal and time literals strictly inside i64 (C02_delete_exact_partial). Refuted otherwise: ungrouped conditions lose conjuncts, NULL literals and time > i64::MAX delete everything, coinciding bounds. Nanosecond databases; coarser precisions are C05."
  },
  {
   "property": "C03",
   "status": "partial",
   "theorems": [
    "C03_pushdown_sound_partial",
    "C03_operand_refuted",
    "C03_union_refuted",
    "C03_cast_refuted"
   ],
   "note": "Sound for filters whose comparisons have no operator inside an operand, no cast of time/tag columns, column-typed literals, and no open/closed clash under OR (C03_pushdown_sound_partial, all shapes of AND/OR/opaque predicates). Refuted for operands with operators, coinciding bounds under OR, and casts."
  },
  {
   "property": "C04",
   "status": "partial",
   "theorems": [
    "C04_of_ranges_partial",
    "C04_of_ranges_sound",
    "C04_union_partial",
    "C04_union_sound",
    "C04_intersect_partial",
    "C04_intersect_complete",
    "C04_values_exact",
    "C04_union_refuted",
    "C04_intersect_refuted",
    "C04_inverted_refuted"
   ],
   "note": "of_ranges, union and intersection are exact at every value where ends do not coincide with different openness; unconditionally the union never invents a value and the intersection never loses one; value sets are exact. The unconditional equivalence is refuted (coinciding open/closed ends)."
  },
  {
   "property": "C05",
   "status": "partial",
   "theorems": [
    "C05_delete_bounds_partial",
    "C05_delete_covers",
    "C05_lower_bound_refuted",
    "C05_upper_bound_refuted",
    "C05_unbounded_refuted"
   ],
   "note": "Exact when every bound is a multiple of the precision unit and non-negative fractions aside; otherwise bounds are truncated (C05_lower_bound_refuted, C05_upper_bound_refuted) and an unconditional DELETE is not converted (C05_unbounded_refuted). Covers is proved in general for the stated side."
  },
  {
   "property": "C06",
   "status": "proved",
   "theorems": [
    "C06_i64_roundtrip",
    "C06_u64_roundtrip"
   ],
   "note": "Round trip for every i64/u64 column and null pattern (zigzag delta, RLE, simple8b and raw forms)."
  },
  {
   "property": "C07",
   "status": "partial",
   "theorems": [
    "C07_timestamp_roundtrip_partial",
    "C07_uncompressed_roundtrip",
    "C07_null_first_refuted"
   ],
   "note": "Round trip when the first row is not null; a null first row loses the first value in the packed form (C07_null_first_refuted). f64 log10 is taken as exact on powers of ten."
  },
  {
   "property": "C08",
   "status": "proved",
   "theorems": [
    "C08_boolean_roundtrip",
    "C08_uncompressed_roundtrip"
   ],
   "note": "Round trip for every boolean column below 2^56 rows."
  },
  {
   "property": "C09",
   "status": "partial",
   "theorems": [
    "C09_accepts",
    "C09_float_roundtrip_partial",
    "C09_uncompressed_roundtrip",
    "C09_single_sentinel_refuted"
   ],
   "note": "Gorilla codec at bit-stream level; round trip for everything accepted except a one-value block holding the end-marker NaN (C09_single_sentinel_refuted). The byte-level write/read buffering is abstracted to a bit stream."
  },
  {
   "property": "C10",
   "status": "proved",
   "theorems": [
    "C10_pack_unpack",
    "C10_reject"
   ],
   "note": ""
  },
  {
   "property": "C11",
   "status": "partial",
   "theorems": [
    "C11_latest_write_partial",
    "C11_only_written_values",
    "C11_duplicates_refuted",
    "C11_max_timestamp_refuted",
    "C11_older_schema_refuted",
    "C11_drop_column_refuted",
    "C11_drop_column_partial",
    "C11_drop_column_elsewhere"
   ],
   "note": "Writes and deletes in any order on a partitioned cache; DROP COLUMN leaves every other value as it was when no time stamp was written twice. Excluded and refuted: two rows of one time stamp in one batch, i64::MAX, older schema versions arriving late, dropping a column from a series with overwritten time stamps. Skip-list insertion order is an external assumption built into the model."
  },
  {
   "property": "C12",
   "status": "proved",
   "theorems": [
    "C12_delete_exact",
    "C12_delete_series_exact",
    "C12_write_elsewhere"
   ],
   "note": "Both delete requests, for every history; other rows and series are unchanged."
  },
  {
   "property": "C13",
   "status": "partial",
   "theorems": [
    "C13_read_back_partial",
    "C13_read_at_partial",
    "C13_empty_last_refuted",
    "C13_footer_refuted"
   ],
   "note": "For every crc function, every history of opens and appends and every consumer; random access through any handle on the growing file. Two cases fail: an empty last record is not returned (C13_empty_last_refuted) and record bytes that look like a footer are taken for one (C13_footer_refuted)."
  },
  {
   "property": "C14",
   "status": "partial",
   "theorems": [
    "C14_torn_tail_partial",
    "C14_recovery_partial",
    "C14_recovery_after_crash_partial",
    "C14_torn_header_refuted",
    "C14_two_crashes_refuted",
    "C14_phantom_refuted"
   ],
   "note": "Torn last append: exact for every cut. WAL recovery: exact for any number of crashes when each tear is at most 3 bytes or holds the header and no further 'F' byte. Refuted otherwise: an append after a tear inside a header is lost, two tears can make reading panic, a record image inside torn data is returned."
  },
  {
   "property": "C15",
   "status": "partial",
   "theorems": [
    "C15_log_refines_partial",
    "C15_log_total_partial",
    "C15_stale_read_refuted"
   ],
   "note": "Refinement of the file-backed log (rolling, purging, truncating, entry cache, restart) to a plain list for every history within op_ok; a stale read outside it is exhibited (C15_stale_read_refuted)."
  },
  {
   "property": "C16",
   "status": "partial",
   "theorems": [
    "C16_last_sound_partial",
    "C16_last_partial",
    "C16_last_refuted"
   ],
   "note": "Answers are the true last entry, and given after every append; refuted after a truncation that empties the entry cache (C16_last_refuted)."
  },
  {
   "property": "C17",
   "status": "partial",
   "theorems": [
    "C17_restart_partial",
    "C17_restart_exact_partial",
    "C17_unapplied_lost_refuted"
   ],
   "note": "Applied entries survive; with nothing purged and nothing unapplied the restart is exact; unapplied entries are dropped (C17_unapplied_lost_refuted). Crashes in the middle of a write are covered at the record level only (C14)."
  },
  {
   "property": "C18",
   "status": "partial",
   "theorems": [
    "C18_dictionary_partial",
    "C18_same_id_partial",
    "C18_durable_partial",
    "C18_distinct_partial",
    "C18_update_crash_refuted",
    "C18_replay_refuted",
    "C18_long_key_refuted",
    "C18_truncation_refuted",
    "C18_update_keeps_id_partial"
   ],
   "note": "For every hash function and every history of registrations, lookups, deletions, tag updates, flushes, cache evictions, tombstone clearing, crashes and queries, the results are those of a dictionary with unique ids and keys; same id on re-registration, survival of crashes once flushed, and no id reuse are stated separately. Missing: table names with dots or reserved prefixes, keys of 511 bytes or more, 2^32 or more operations, index rebuild. Findings (refuted theorems): an updated series is lost in a crash, replayed updates can give two ids one series, a long key blocks every flush, 16-bit lengths make two series share an id."
  },
  {
   "property": "C19",
   "status": "partial",
   "theorems": [
    "C19_query_exact_partial",
    "C19_dotted_table_refuted",
    "C19_multi_tag_refuted",
    "C19_multi_tag_flushed_partial"
   ],
   "note": "Queries by tag conditions (value sets, ranges, conjunctions) return exactly the live matching series for every history, over cache and storage together; column ids as tag names, table names without dots. Findings: a table name containing a dot is found by queries of its prefix; get_series_id_list with three tags can return a non-matching series."
  },
  {
   "property": "C20",
   "status": "proved",
   "theorems": [
    "C20_stored_key_unique",
    "C20_stored_tomb_unique",
    "C20_kinds_apart",
    "C20_key_injective",
    "C20_truncation_refuted"
   ],
   "note": "Stored keys identify their series without restriction (the storage takes at most 511 bytes); kinds of keys never collide. Finding: beyond the storage limit the 16-bit lengths make the encoding non-injective, which the write cache is exposed to."
  },
  {
   "property": "C21",
   "status": "proved",
   "theorems": [
    "C21_sort_merge",
    "C21_batching_irrelevant"
   ],
   "note": "Loser tree, cursors and batch builder modelled; for any time-sorted streams, batch boundaries and batch size >= 1 the output is the merge of all rows (one row per timestamp, increasing, last non-null value per column in stream order)."
  },
  {
   "property": "C22",
   "status": "partial",
   "theorems": [
    "C22_latest_write_partial",
    "C22_written_once",
    "C22_some_write",
    "C22_compaction_refuted"
   ],
   "note": "Proved on a model of one series with the actual cache, flush, compaction and read models: for every history without compaction (flushes in any progress and order) a query returns the latest values; with compactions, if no time stamp is written twice it returns exactly the rows, and in general the right time stamps with values that were really written. The full statement is refuted: a compaction output gets a file id above the current cache, so a rewrite of a compacted time stamp is permanently hidden (C22_compaction_refuted)."
  },
  {
   "property": "C23",
   "status": "partial",
   "theorems": [
    "C23_filter_refuted",
    "C23_filter_partial",
    "C23_filter_by_time",
    "C23_filter_written_once"
   ],
   "note": "Refuted in general (filter runs before versions are merged); proved when all versions of a row agree on the filter, for time/tag clauses, and when no timestamp was written twice."
  },
  {
   "property": "C24",
   "status": "proved",
   "theorems": [
    "C24_groups",
    "C24_groups_ordered",
    "C24_groups_connected",
    "C24_read"
   ],
   "note": "Grouping is a partition into time-disjoint, ordered, connected groups; the whole read merges by file id."
  },
  {
   "property": "C25",
   "status": "partial",
   "theorems": [
    "C25_compact_content_partial",
    "C25_query_unchanged_partial",
    "C25_read_unchanged_partial",
    "C25_file_order_refuted",
    "C25_picker_order_refuted"
   ],
   "note": "Output content, query-equivalence (row level and through the reader) proved for requests with ascending first series ids; refuted for other requests (series split) and for the level picker's file order."
  },
  {
   "property": "C26",
   "status": "partial",
   "theorems": [
    "C26_recover_exact_partial",
    "C26_failed_rewrite_refuted",
    "C26_file_id_reuse_refuted",
    "C26_max_timestamp"
   ],
   "note": "Recovered and running version show exactly the files of the history for every history of edits, rewrites, crashes, restarts and snapshots and every map iteration order; the next id exceeds all live ids. A rewrite that fails half-way loses later edits (C26_failed_rewrite_refuted); ids of removed files are handed out again after a rewrite (C26_file_id_reuse_refuted)."
  },
  {
   "property": "C27",
   "status": "partial",
   "theorems": [
    "C27_record_roundtrip",
    "C27_reload_exact_partial",
    "C27_compact_keeps_partial",
    "C27_half_lines_refuted",
    "C27_concurrent_delete_refuted",
    "C27_stale_tmp_refuted",
    "C27_old_format"
   ],
   "note": "Byte round trip of tombstone records unconditional. For every history of deletes, completed moves (delta compactions) and restarts, what is hidden is exactly what was deleted or moved, when no two ranges of the history are half-lines leaving a gap. Refuted: half-lines lose later deletes (C27_half_lines_refuted), deletes between the temporary file and its installation are lost (C27_concurrent_delete_refuted), a failed compaction's temporary file hides rows later (C27_stale_tmp_refuted). Torn writes of the tombstone file are covered at the record level by C14."
  },
  {
   "property": "C28",
   "status": "partial",
   "theorems": [
    "C28_stays_deleted_partial",
    "C28_flush_refuted",
    "C28_compaction_refuted",
    "C28_tombstone_lost_refuted"
   ],
   "note": "Proved when deletes do not arrive in the middle of a flush or compaction. Refuted otherwise in three ways (delete during flush, delete during compaction, tombstones overwritten by a delta compaction)."
  },
  {
   "property": "C29",
   "status": "partial",
   "theorems": [
    "C29_no_false_negative",
    "C29_reload_partial",
    "C29_new_total",
    "C29_small_reload_refuted"
   ],
   "note": "No false negatives for any filter and insertion order, and after a save/reload when the filter has more than 32 bits; smaller filters change size on reload and lose members (C29_small_reload_refuted). The two hash functions are arbitrary."
  },
  {
   "property": "C30",
   "status": "partial",
   "theorems": [
    "C30_budget",
    "C30_balance_bounded",
    "C30_request_bounded",
    "C30_refill_exact_partial",
    "C30_refill_wrap_refuted"
   ],
   "note": "Budget, balance and per-request bounds for every request history; exact refill except when the 64-bit product wraps (C30_refill_wrap_refuted)."
  },
  {
   "property": "C31",
   "status": "proved",
   "theorems": [
    "C31_refines_fifo",
    "C31_bounded",
    "C31_most_recent",
    "C31_truncate_exact"
   ],
   "note": "Refinement to a bounded FIFO map for every operation sequence and every capacity."
  },
  {
   "property": "C32",
   "status": "partial",
   "theorems": [
    "C32_never_exceeds_limit_partial",
    "C32_released_is_zero",
    "C32_wrap_refuted"
   ],
   "note": "The limit holds while the requested sizes do not wrap the 64-bit sum (C32_wrap_refuted)."
  },
  {
   "property": "C33",
   "status": "partial",
   "theorems": [
    "C33_bucket_covers_partial",
    "C33_bucket_duration",
    "C33_buckets_disjoint_partial",
    "C33_max_refuted"
   ],
   "note": "Every timestamp except i64::MAX (C33_max_refuted); disjointness for a fixed bucket duration."
  },
  {
   "property": "C34",
   "status": "partial",
   "theorems": [
    "C34_alter_duration_refuted",
    "C34_query_reaches",
    "C34_query_reaches_after_sync",
    "C34_one_replica_set_partial",
    "C34_write_routed_partial",
    "C34_routing_never_panics",
    "C34_ids_distinct",
    "C34_placement"
   ],
   "note": "Holds while the bucket duration of the database is not altered (C34_alter_duration_refuted)."
  },
  {
   "property": "C35",
   "status": "partial",
   "theorems": [
    "C35_check_exact",
    "C35_order",
    "C35_stronger_authorises",
    "C35_more_privileges",
    "C35_action_test",
    "C35_statement",
    "C35_dba_all",
    "C35_tenant_isolation",
    "C35_grant_gives",
    "C35_grant_monotone_partial",
    "C35_grant_monotone_refuted",
    "C35_revoke_never_adds",
    "C35_revoke_removes",
    "C35_history_upper",
    "C35_member_role_partial",
    "C35_member_role_refuted"
   ],
   "note": "Check and statement rules, order of privileges, tenant isolation, GRANT and REVOKE histories are exact. GRANT replaces an earlier privilege, so GRANT READ after GRANT ALL removes write (C35_grant_monotone_refuted); the role cache is looked up with a user id, so a custom role member is not found there (C35_member_role_refuted)."
  },
  {
   "property": "C36",
   "status": "partial",
   "theorems": [
    "C36_drop_database_partial",
    "C36_recreated_database_partial",
    "C36_drop_role_partial",
    "C36_recreated_role_partial",
    "C36_drop_user_partial",
    "C36_recreated_user",
    "C36_drop_tenant_partial",
    "C36_recreated_tenant_partial",
    "C36_drop_user_members_refuted",
    "C36_drop_tenant_members_refuted",
    "C36_recreated_role_members_refuted",
    "C36_recreated_database_privileges_refuted",
    "C36_drop_tenant_databases_refuted",
    "C36_late_update_refuted",
    "C36_slash_table_refuted"
   ],
   "note": "All ~38 metadata write commands are modelled. Proved for every legal history: after DROP DATABASE no key of the database, its tables or buckets remains, and a re-created one is empty; a dropped role is gone and a re-created one has only the privileges given; a dropped user is gone and listed in no tenant, a re-created user with a fresh id is a member nowhere; DROP TENANT as the coordinator runs it never fails and a re-created tenant has no roles, databases or members. Refuted (findings): memberships of dropped users stay; members keep a dropped role and get the re-created one; privileges on a dropped database pass to its successor; the metadata command leaves databases; a late table update resurrects a table; tables with '/' in the name survive."
  },
  {
   "property": "C37",
   "status": "partial",
   "theorems": [
    "C37_replicas_agree_partial",
    "C37_snapshot_continues",
    "C37_role_id_refuted",
    "C37_tenant_limiter_refuted",
    "C37_limiter_request_refuted",
    "C37_bucket_reachability_refuted",
    "C37_bucket_ties_refuted",
    "C37_change_log_refuted"
   ],
   "note": "Proved for every history: replicas that iterate hash maps in arbitrary orders end with equal data, version, id counters and answers, provided they agree on clock/UUID/reachability for the commands listed in 'agree'. Refuted (findings): role ids (UUID drawn on each replica), tenant limiters and limiter requests (local clock), bucket creation (reachability, ties in free space), change log order."
  },
  {
   "property": "C38",
   "status": "partial",
   "theorems": [
    "C38_every_change_logged",
    "C38_watch_exact_partial",
    "C38_filter",
    "C38_snapshot_refuted",
    "C38_lagging_replica_refuted",
    "C38_tenant_record_refuted",
    "C38_new_tenant_refuted",
    "C38_log_range"
   ],
   "note": "Exact for one server over every history of changes, requests, wake-ups, restarts and resynchronisations; key filter characterised. Refuted: snapshot install skips changes, a lagging replica repeats them, the tenant's own record is not delivered, a newly watched tenant misses changes."
  },
  {
   "property": "C39",
   "status": "partial",
   "theorems": [
    "C39_round_trip_partial",
    "C39_tag_order",
    "C39_round_trip_sorted",
    "C39_escaped_table_start_refuted",
    "C39_escaped_field_start_refuted",
    "C39_table_equals_refuted",
    "C39_backslash_refuted",
    "C39_no_panic_refuted",
    "C39_incomplete_line_refuted",
    "C39_trailing_text_refuted",
    "C39_no_fields_refuted"
   ],
   "note": "Round trip for every list of points and every documented spelling (escapes anywhere, comments, blank lines, CR/LF, all value kinds), with names outside 'writable' excluded; the exclusions are shown to be genuine parser defects by the refuted theorems. The float parser is a parameter."
  },
  {
   "property": "C40",
   "status": "proved",
   "theorems": [
    "C40_split_unite",
    "C40_unite_split",
    "C40_unite_injective"
   ],
   "note": ""
  },
  {
   "property": "C41",
   "status": "partial",
   "theorems": [
    "C41_assignment_exact_partial",
    "C41_assignment_complete",
    "C41_sliding_filter_refuted",
    "C41_before_epoch_refuted",
    "C41_origin_refuted",
    "C41_durations_accepted"
   ],
   "note": "Exact and duplicate-free assignment when the slide divides the window, or the window is shorter than the slide with a small origin, for instants not before the origin minus one slide. Other cases refuted: non-dividing slide, instants before the epoch, origins larger than the window."
  },
  {
   "property": "C42",
   "status": "proved",
   "theorems": [
    "C42_to_finer_exact",
    "C42_to_coarser_truncates",
    "C42_roundtrip",
    "C42_monotone",
    "C42_duration_units"
   ],
   "note": ""
  },
  {
   "property": "C43",
   "status": "partial",
   "theorems": [
    "C43_contract_partial",
    "C43_purged_resurface_refuted"
   ],
   "note": "The storage contract over every history of append, truncate, purge, within nop_ok; purged entries come back after a restart (C43_purged_resurface_refuted)."
  },
  {
   "property": "C44",
   "status": "partial",
   "theorems": [
    "C44_page_roundtrip_partial",
    "C44_page_write_total"
   ],
   "note": "All types and codecs, compressors as arbitrary invertible functions; the two failing cases of C07 and C09 are excluded."
  },
  {
   "property": "C45",
   "status": "partial",
   "theorems": [
    "C45_replica_answers_partial",
    "C45_renumbering_refuted",
    "C45_deleted_rows_refuted"
   ],
   "note": "Same answers when no file hides deleted rows and overlapping files are listed in id order. Renumbering makes old values win (C45_renumbering_refuted); tombstones are not transferred (C45_deleted_rows_refuted)."
  },
  {
   "property": "C46",
   "status": "partial",
   "theorems": [
    "C46_ids_never_reused_partial",
    "C46_ids_distinct_partial",
    "C46_reserved_ids_partial",
    "C46_reserved_apart_partial"
   ],
   "note": "For all histories in which clients add a reserved id once (ids_ok). The id counter is unbounded in the model; in the code it is a u32 that wraps silently."
  },
  {
   "property": "C47",
   "status": "partial",
   "theorems": [
    "C47_only_what_is_named",
    "C47_tenants_apart",
    "C47_clusters_apart_partial",
    "C47_drop_user_other_cluster_refuted",
    "C47_refused_changes_nothing",
    "C47_acknowledged_is_stored",
    "C47_acknowledged_is_removed",
    "C47_leader_changed",
    "C47_members_changed",
    "C47_vnode_status_keeps_members",
    "C47_queries_moved"
   ],
   "note": "Scope, tenant isolation, refused = unchanged, stored, removed: for all commands and histories with legal names. Clusters are apart except for DROP USER (C47_drop_user_other_cluster_refuted)."
  },
  {
   "property": "C48",
   "status": "partial",
   "theorems": [
    "C48_no_lost_update_partial",
    "C48_update_after_drop_refuted",
    "C48_lock_kept",
    "C48_lock_acquired",
    "C48_lock_only_when_free",
    "C48_release_by_holder"
   ],
   "note": "Proved while the table stays stored and without raw Set; an update after DROP TABLE is accepted (C48_update_after_drop_refuted). Lock: proved for all histories."
  },
  {
   "property": "C49",
   "status": "partial",
   "theorems": [
    "C49_first_partial",
    "C49_last_partial",
    "C49_first_last_single_partial",
    "C49_first_null_hides_batch_refuted",
    "C49_last_null_hides_batch_refuted",
    "C49_mode",
    "C49_increase_partial",
    "C49_increase_partitions_refuted",
    "C49_gauge_partial",
    "C49_data_quality_partial",
    "C49_data_quality_last_batch_refuted"
   ],
   "note": "MODE in full for fewer than 2^32 rows. FIRST/LAST for rows that have a value whenever they have a time (a null value hides its batch: refuted). INCREASE in one partition (over two the increase between them is lost: refuted). GAUGE_AGG for distinct times. Data quality functions for one batch per partition (only the last batch counts: refuted)."
  },
  {
   "property": "C50",
   "status": "partial",
   "theorems": [
    "C50_rows_of_input",
    "C50_size_partial",
    "C50_single_batch_partial",
    "C50_too_many_rows_refuted",
    "C50_too_few_rows_refuted",
    "C50_one_of_first_batch_refuted"
   ],
   "note": "rows are from the input, none twice, for all plans; between 1 and 2n-1 rows; the exact number for one batch. Refuted: n=5 gives 6 rows of 9 in three batches, n=8 gives 4 of 7 rows in seven batches, n=1 only ever draws from the first batch."
  },
  {
   "property": "C51",
   "status": "partial",
   "theorems": [
    "C51_total_duration",
    "C51_duration_since_partial",
    "C51_duration_within_partial",
    "C51_state_at_partial",
    "C51_single_row_refuted",
    "C51_negative_interval_refuted"
   ],
   "note": "total duration in full; duration since/within and STATE_AT for at least two rows (a single row is an error: refuted) and non-negative intervals (refuted). Distinct times."
  },
  {
   "property": "C52",
   "status": "partial",
   "theorems": [
    "C52_vnode_partial",
    "C52_vnode_restart_partial",
    "C52_vnode_files_partial",
    "C52_meta_partial",
    "C52_meta_crash_refuted",
    "C52_snapshot_crash_refuted"
   ],
   "note": "Proved for vnode replicas with crashes anywhere but inside the installation of a snapshot, and for metadata replicas when no crash falls between recording an entry as applied and applying it. Refuted with a concrete history otherwise: both record the index before the data. Terms and power failures are not modelled."
  },
  {
   "property": "C53",
   "status": "proved",
   "theorems": [
    "C53_fields",
    "C53_last_membership",
    "C53_snapshot_membership",
    "C53_summaries",
    "C53_deleted_gone"
   ],
   "note": "Store refines one record per group for every history. Values are kept decoded; transactions are atomic; the snapshot index asked for is not below an index memberships were cleared up to (snapshot indexes only grow)."
  },
  {
   "property": "C54",
   "status": "partial",
   "theorems": [
    "C54_level_pick",
    "C54_delta_pick",
    "C54_no_file_twice_partial",
    "C54_released_partial",
    "C54_gap_refuted",
    "C54_failed_refuted"
   ],
   "note": "Holds for all histories in which the delta picker does not take a level-0 file that falls between the files of a level (C54_gap_refuted: that file is not marked and is taken twice). Marks are released unless a compaction fails (C54_failed_refuted). Level scores are arbitrary; a pick is one step."
  },
  {
   "property": "C55",
   "status": "partial",
   "theorems": [
    "C55_accepts",
    "C55_read_back",
    "C55_raw_copy",
    "C55_series_filter",
    "C55_update_compressed_panics",
    "C55_update_compressed_refuted",
    "C55_update_crash_refuted"
   ],
   "note": "Proved: which histories a file accepts, reading back after any history of tag updates without metadata compression, raw copies, the series filter. Refuted: a tag update with compressed metadata leaves a file whose opening panics; a crash within a tag update leaves a file that does not open. Assumed: bincode round trip, footer of fixed size, codec round trip."
  },
  {
   "property": "C56",
   "status": "partial",
   "theorems": [
    "C56_stored_partial",
    "C56_types",
    "C56_tag_field_refuted",
    "C56_strict_drop_refuted",
    "C56_strict_type_refuted",
    "C56_strict_panic_refuted",
    "C56_replay",
    "C56_replay_rename_refuted"
   ],
   "note": "Proved for all requests in which no name of a table is used in two ways, with schemas that know the columns (any number of tables, points and missing values), and for replays under unchanged columns. Refuted (counterexamples): a text field with the name of a tag of the same point overwrites the tag; strict databases drop unknown fields, keep values of a wrong type and panic on a field named as a tag column; replay after RENAME COLUMN loses the value."
  },
  {
   "property": "C57",
   "status": "partial",
   "theorems": [
    "C57_ids_partial",
    "C57_accepted_partial",
    "C57_columns_added",
    "C57_known_columns",
    "C57_read_later_partial",
    "C57_no_other_value_partial",
    "C57_conflict_refuted",
    "C57_alter_race_refuted"
   ],
   "note": "Proved for all histories in which ALTER TABLE runs on the schema it was planned with and for writers whose first request to the metadata is not refused; the columns are added in any case. Refuted: a refused writer goes on with the schema it made up, so its values are read as another writer's field; two concurrent ADD COLUMN statements give two columns one id and writes then panic. DROP TABLE and u32 overflow of ids are left out."
  },
  {
   "property": "C58",
   "status": "partial",
   "theorems": [
    "C58_values_kept_partial",
    "C58_rows_kept",
    "C58_common_column_kept",
    "C58_values_kept_flush_refuted",
    "C58_values_kept_output_refuted"
   ],
   "note": "Proved for files whose schema version tells which columns they have (C58_values_kept_partial); without that condition rows and columns common to all blocks are kept (C58_rows_kept, C58_common_column_kept). The full claim is false of the code: a flush labels its file with the newest version of all series (C58_values_kept_flush_refuted), a compaction labels merged blocks with the oldest (C58_values_kept_output_refuted); in both cases a later compaction drops values of an added column."
  },
  {
   "property": "C59",
   "status": "partial",
   "theorems": [
    "C59_scan_partial",
    "C59_filtered_scan_partial",
    "C59_time_filter_partial",
    "C59_scan_mixed_chunk_refuted",
    "C59_filtered_scan_rename_refuted",
    "C59_filtered_scan_nested_refuted"
   ],
   "note": "Proved for chunks whose column groups have the same columns, predicates whose AND/OR are not below another operator and names that were not reused. The full claim is false of the code: a chunk of a raw-copied old block and a newer block makes every query of the new column fail (C59_scan_mixed_chunk_refuted), predicates find file columns by name so a reused name loses rows (C59_filtered_scan_rename_refuted), and rewriting below IS NOT TRUE and the like strengthens the predicate (C59_filtered_scan_nested_refuted)."
  },
  {
   "property": "C60",
   "status": "partial",
   "theorems": [
    "C60_exact_partial",
    "C60_rows_partial",
    "C60_batch_order_refuted",
    "C60_error_refuted",
    "C60_precision_refuted",
    "C60_idle_restart_refuted",
    "C60_rows_restart_refuted"
   ],
   "note": "Proved: exactly once for queries with GROUP BY over ns tables with crashes and restarts at any point, provided runs do not end with errors, rows arrive in time order, the last batch of a scan has its latest row, a later row arrives after a stop before the next run, and groups do not end before their rows; for queries without aggregation while the server does not stop. Refuted otherwise (witnesses): batch order of a scan, retried runs, ms tables, idle restarts, restarts of queries without aggregation. Model: one source table, no WHERE, aggregate state = rows, DataFusion operators as documented."
  },
  {
   "property": "C61",
   "status": "partial",
   "theorems": [
    "C61_groups_partial",
    "C61_rows_partial",
    "C61_date_bin_refuted",
    "C61_late_row_refuted",
    "C61_error_refuted",
    "C61_before_1970_refuted"
   ],
   "note": "Proved: every row at least once (and no foreign row) for every precision, batch order, crash and restart, when rows arrive in time order, groups do not end before their rows and no run ends with an error (errors allowed without aggregation). Refuted otherwise (witnesses): GROUP BY date_bin drops rows of a window that has begun, late rows within the configured delay are dropped, a failed run's groups are dropped by its retry, ms times before 1970."
  },
  {
   "property": "C62",
   "status": "partial",
   "theorems": [
    "C62_lines_and_inserts_partial",
    "C62_any_tag_order_partial",
    "C62_inserts_partial",
    "C62_logs_partial",
    "C62_tag_order_refuted",
    "C62_null_tag_refuted",
    "C62_added_tag_refuted",
    "C62_renamed_tag_refuted",
    "C62_updated_tag_refuted",
    "C62_update_conflict_refuted",
    "C62_log_refuted"
   ],
   "note": "Proved for lines together with INSERTs that give all tags of a table declared in name order, for any declared order when buckets have a power of two of replica sets, for INSERTs alone and for the log APIs alone. Refuted (two rows for one table, tags and time): other tag orders, NULL tags, a tag added between INSERTs, renamed tags, updated tag values (also onto an existing series), log APIs beside lines."
  },
  {
   "property": "C63",
   "status": "partial",
   "theorems": [
    "C63_success_partial",
    "C63_at_most_once_partial",
    "C63_reachable_leader_partial",
    "C63_calls",
    "C63_all_sets_partial",
    "C63_twice_refuted",
    "C63_not_started_refuted",
    "C63_all_or_nothing_refuted"
   ],
   "note": "Proved for all replies and leader changes: success means that the last call executed the request; at most one execution, and none when the answer says it was not started, if no redirected call was executed and answered with an error; exactly one when the leader is reachable; leader first, all nodes tried, at most two calls per replica; over several replica sets success means all of them, and refusal by the limiter means none. Missing because false: a redirected call whose answer is lost is retried on the next node and may run twice or end in an answer saying it was not started; a failing statement may have taken effect in some replica sets. That an unreachable or redirecting node did not execute is an assumption on gRPC and openraft."
  },
  {
   "property": "C64",
   "status": "partial",
   "theorems": [
    "C64_one_replica",
    "C64_no_replica",
    "C64_leader_read",
    "C64_copying_last",
    "C64_broken_replaced",
    "C64_one_unreachable",
    "C64_query_partial",
    "C64_acknowledged_rows_refuted",
    "C64_unknown_vnode_refuted",
    "C64_third_replica_refuted"
   ],
   "note": "Proved: a read returns a beginning of one replica not marked broken, all of it when it succeeds; no readable replica is an error; the leader is read when it answers; one unreachable node of two or more readable replicas does no harm; copying replicas last; a replica marked broken is not asked again; a successful query is the rows of all replica sets when the candidates are in sync. Missing because false: acknowledged rows may be missing when a lagging or copying replica is read instead of the unreachable leader, a node that does not know the vnode answers with no rows and no error, and a third replica is never tried."
  },
  {
   "property": "C65",
   "status": "partial",
   "theorems": [
    "C65_exact_count",
    "C65_no_row_missed",
    "C65_count_rows_partial",
    "C65_count_column_partial",
    "C65_null_refuted",
    "C65_overwritten_refuted",
    "C65_deleted_refuted",
    "C65_added_tag_refuted",
    "C65_renamed_refuted",
    "C65_subquery_refuted"
   ],
   "note": "Proved: exact_count and COUNT with WHERE, GROUP BY, DISTINCT or of a tag are computed from the rows; COUNT(*) never misses a row; COUNT(*) is exact when no row was overwritten or deleted after a flush; COUNT(column) is exact when moreover the column kept its name, has no NULL in files, and no tag was added after fields. Missing because false (witnesses): NULLs in files are counted, overwritten and deleted rows are counted, after ADD TAG another field is counted or none, after RENAME COLUMN values in files are not counted, a subquery that renames columns is ignored."
  },
  {
   "property": "C66",
   "status": "partial",
   "theorems": [
    "C66_only_permitted_partial",
    "C66_stays_in_tenant",
    "C66_exact",
    "C66_must_change",
    "C66_root_protected",
    "C66_own_names",
    "C66_kill_refuted",
    "C66_external_table_refuted",
    "C66_show_subquery_refuted",
    "C66_traces_refuted",
    "C66_dump_refuted",
    "C66_same_password_refuted"
   ],
   "note": "Proved for every statement and write request except KILL, three-part CREATE EXTERNAL TABLE, SHOW SERIES/TAG VALUES with a subquery on another database, the Jaeger trace reads and the DDL dump, where it is false (five refuted theorems); storing a hash of the old password satisfies must_change_password (C66_same_password_refuted). Query planning is taken as: every table scanned was obtained from the schema provider. File locations of COPY and external tables and the raft/meta debug endpoints are not modelled."
  },
  {
   "property": "C67",
   "status": "partial",
   "theorems": [
    "C67_accepted_was_valid_partial",
    "C67_password_revoked",
    "C67_member_removed",
    "C67_effective_at_once",
    "C67_token_from_login",
    "C67_idle_token",
    "C67_token_refuted",
    "C67_private_key_refuted",
    "C67_other_node_refuted",
    "C67_login_in_progress_refuted",
    "C67_stale_copy_refuted",
    "C67_member_race_refuted",
    "C67_grant_refuted"
   ],
   "note": "Accepted requests proved grounded in users, members and roles stored at most TTL + check time + watch lag ago, and grounded at once after the watch and purge with no check in progress; not for bearer tokens (never re-validated), private keys (ignored on a cache hit) and the member-role race, which are refuted"
  },
  {
   "property": "C68",
   "status": "partial",
   "theorems": [
    "C68_series_exact_partial",
    "C68_series_once_partial",
    "C68_keys_differ",
    "C68_tag_values_exact_partial",
    "C68_with_key",
    "C68_select_rows",
    "C68_no_tags_refuted",
    "C68_ambiguous_key_refuted",
    "C68_no_rows_refuted",
    "C68_clash_refuted",
    "C68_function_refuted",
    "C68_subquery_refuted"
   ],
   "note": "proved for tables with tags and WHERE clauses whose conjuncts are comparisons of a tag with a literal or predicates (no bare function call, no clashing bounds); false otherwise: six recorded cases"
  },
  {
   "property": "C69",
   "status": "partial",
   "theorems": [
    "C69_bounded_partial",
    "C69_decision",
    "C69_served",
    "C69_oversize",
    "C69_every_second_refuted",
    "C69_exact_maximum_refuted",
    "C69_first_refuted",
    "C69_hoard_refuted",
    "C69_lost_refuted",
    "C69_alter_refuted"
   ],
   "note": "bound proved for histories without ALTER TENANT; decision exact; false as stated in six recorded cases (strict comparison, hoarding, lost replies, ALTER TENANT)"
  },
  {
   "property": "C70",
   "status": "partial",
   "theorems": [
    "C70_kept_partial",
    "C70_accepted",
    "C70_refused_partial",
    "C70_reclaimed_partial",
    "C70_gone_partial",
    "C70_leak_refuted",
    "C70_inf_refuted",
    "C70_alter_refuted",
    "C70_old_rows_refuted"
   ],
   "note": "Proved: retained rows are kept, accepted; older rows without a bucket are refused; with one node, expired rows go and no storage is left. Not true in general (refuted): storage leaks with several nodes, INF is 2^63-1 units, a node that missed ALTER deletes by the old TTL, old rows enter live buckets. Simplification: a shut-down group deleted from the metadata is forgotten only after the node's copy has caught up."
  },
  {
   "property": "C71",
   "status": "partial",
   "theorems": [
    "C71_done_partial",
    "C71_update_lost_refuted",
    "C71_blocked_refuted",
    "C71_interrupted_refuted",
    "C71_names_refuted"
   ],
   "note": "Proved: a statement that finds its name free and ends OK has been carried out since it was issued, for every interleaving. Refuted in general: a concurrent UPDATE of the same table is dropped, a second failed DROP is never retried and blocks later ones, a DROP interrupted by a crash blocks the name for good, two objects can share a task name; all answered OK. Calls of the meta service are taken not to fail; what the operation does to the data is C28, C46-C48."
  },
  {
   "property": "C72",
   "status": "partial",
   "theorems": [
    "C72_not_early",
    "C72_not_forgotten_partial",
    "C72_recovered_partial",
    "C72_recover_marks",
    "C72_early_refuted",
    "C72_recovered_dropped_refuted",
    "C72_recover_retry_refuted",
    "C72_restart_refuted",
    "C72_overdue_refuted",
    "C72_cancel_other_refuted"
   ],
   "note": "Proved: nothing is carried out before a time it was asked for (names not clashing); without failing nodes a delayed DROP is kept by the first node and its task alone completes it at its time; after the nodes heard of RECOVER nothing is done on the object in any continuation, crashes included. Refuted: RECOVER while the watch lags, RECOVER of a failed DROP being retried, restart of a single node forgets the DROP, an overdue task taken over sleeps 2^64 ns, name clashes cancel or run another object's DROP. Rewinding of the watch position is not modelled."
  },
  {
   "property": "C73",
   "status": "partial",
   "theorems": [
    "C73_read_back_partial",
    "C73_write_accepted",
    "C73_injection_refuted",
    "C73_upper_case_refuted",
    "C73_missing_label_refuted",
    "C73_regex_refuted",
    "C73_name_refuted",
    "C73_overflow_refuted",
    "C73_precision_refuted",
    "C73_null_refuted",
    "C73_separator_refuted"
   ],
   "note": "Proved for nanosecond databases written by remote write only, for label names of lower-case letters, digits and _, values without quotes (in queries) and without character 1, matchers on labels that the metrics have (and all their series, if the matcher accepts the empty value), anchored expressions and exactly one matcher on the name. The excluded cases are refuted by witnesses. sqlparser's tokenizer/parser is modelled only for texts of this shape (a quote that ends a string early can build others: shown for OR). The unit in which a number is compared with the time column is DataFusion's coercion (assumed: the column's unit)."
  },
  {
   "property": "C74",
   "status": "partial",
   "theorems": [
    "C74_restore_tenant_partial",
    "C74_restore_partial",
    "C74_injected_owner_refuted",
    "C74_injected_user_refuted",
    "C74_limits_refuted",
    "C74_case_refuted",
    "C74_defaults_refuted",
    "C74_dropped_refuted",
    "C74_geometry_refuted",
    "C74_column_order_refuted",
    "C74_comment_refuted",
    "C74_blank_tenant_refuted",
    "C74_stale_grant_refuted",
    "C74_root_member_refuted"
   ],
   "note": "Proved for catalogs whose names, options and tables the script can express (no double quotes or line breaks in names, no tenant limits, no geometry columns, tables with tags before fields) in clusters with the same initial objects. Durations and sizes: any texts that are read back. External and stream tables are left out. Twelve findings are proved as refuted variants, among them two by which a name chosen by a user runs statements as the administrator."
  },
  {
   "property": "C75",
   "status": "partial",
   "theorems": [
    "C75_columns_partial",
    "C75_record_partial",
    "C75_rejected_partial",
    "C75_ndjson_partial",
    "C75_bulk_partial",
    "C75_all_or_nothing_partial",
    "C75_loki_partial",
    "C75_dotted_refuted",
    "C75_empty_key_refuted",
    "C75_tag_escaped_refuted",
    "C75_tag_quote_refuted",
    "C75_integer_refuted",
    "C75_null_refuted",
    "C75_loki_json_refuted",
    "C75_bulk_id_refuted"
   ],
   "note": "Proved for records whose keys are non-empty and have no dot; refuted for dotted and empty keys, escaped tags, integers beyond 2^53, nulls, Loki requests in JSON and ids of bulk commands. Protobuf and JSON decoding not modelled."
  },
  {
   "property": "C76",
   "status": "partial",
   "theorems": [
    "C76_span_partial",
    "C76_readable_partial",
    "C76_events_partial",
    "C76_trace_partial",
    "C76_search_partial",
    "C76_status_leaks_refuted",
    "C76_phantom_event_refuted",
    "C76_eleventh_event_refuted",
    "C76_event_time_refuted",
    "C76_name_refuted",
    "C76_service_refuted",
    "C76_duration_refuted",
    "C76_batch_refuted",
    "C76_search_process_refuted"
   ],
   "note": "Proved for spans with plain names and a status, any table columns; events and links for ordered columns; traces of one-row batches. Refuted: status leaking from an earlier span of the resource, phantom events, eleventh event lost, event time unit, quotes in names, numeric service names, negative durations, batches of several rows, process ids of a search. Protobuf and the scan are not modelled."
  },
  {
   "property": "C77",
   "status": "partial",
   "theorems": [
    "C77_even_series_partial",
    "C77_cheapest_partial",
    "C77_epoch_row_refuted",
    "C77_median_refuted",
    "C77_few_rows_refuted",
    "C77_no_rows_refuted",
    "C77_zero_interval_refuted",
    "C77_equal_times_refuted",
    "C77_random_refuted",
    "C77_integer_refuted",
    "C77_unsigned_refuted"
   ],
   "note": "Proved for every series that the rows shown are those of a cheapest repair on an even grid, except for leading added rows, and that an even series is unchanged. Refuted: rows of 1970-01-01, the median, series of up to two rows, interval 0, equal times, random ties, NULLs of integer columns, unsigned columns."
  },
  {
   "property": "C78",
   "status": "partial",
   "theorems": [
    "C78_keeps_partial",
    "C78_linear_partial",
    "C78_previous_partial",
    "C78_mean_partial",
    "C78_ar_partial",
    "C78_failure_partial",
    "C78_unwritten_refuted",
    "C78_moving_average_refuted",
    "C78_moving_average_nan_refuted",
    "C78_integer_refuted",
    "C78_unsigned_refuted"
   ],
   "note": "Methods mean, previous and linear give the promised value (linear: not in the last row, where the code returns memory it never wrote: C78_unwritten_refuted), all methods keep times and values that are there, and fail only without values. ma is not a moving average (two witnesses); ar only: no value is missing. Integer columns show NaN as 0 and unsigned columns are refused. Exact arithmetic instead of doubles."
  },
  {
   "property": "C79",
   "status": "partial",
   "theorems": [
    "C79_limits_partial",
    "C79_same_partial",
    "C79_answers_partial",
    "C79_one_value_refuted",
    "C79_two_rows_refuted",
    "C79_integer_refuted",
    "C79_unsigned_refuted"
   ],
   "note": "Method screen over exact rationals with strictly ascending times: missing values, limits (given or derived), unchanged slow series and answers are proved. Panics for one value and for two rows, integer columns that leave the limits and refused unsigned columns are witnesses. Missing: method lsgreedy, rounding of doubles, equal times."
  },
  {
   "property": "C80",
   "status": "partial",
   "theorems": [
    "C80_score_partial",
    "C80_order_partial",
    "C80_regular_partial",
    "C80_constant_partial",
    "C80_line_partial",
    "C80_long_gap_refuted",
    "C80_redundant_refuted",
    "C80_two_rows_refuted",
    "C80_equal_times_refuted",
    "C80_unsigned_refuted"
   ],
   "note": "Range, order, regular series with gaps of up to eight rows and constant series are proved over exact rationals. Witnesses: gaps of ten steps and more do not count, several copies of a row count once, validity panics for two rows and for rows of equal time, unsigned columns are refused. Missing: what validity and timeliness are for series in general, rounding of times to doubles. Missing values of a line are filled with that line; a constant series with missing values has validity 1."
  },
  {
   "property": "C81",
   "status": "partial",
   "theorems": [
    "C81_page",
    "C81_bounds_partial",
    "C81_exact_partial",
    "C81_prune_partial",
    "C81_skip_partial",
    "C81_skip_eq_partial",
    "C81_nan_refuted",
    "C81_minus_zero_refuted",
    "C81_exact_flush_refuted"
   ],
   "note": "Proved for all types, writers, predicates and groups, for floats other than NaN and -0.0: no group with a selected row is skipped. For integers and times, <, <=, >, >= read exactly the groups with a selected row, and = those whose range has the literal. The rules of DataFusion's PruningPredicate and Arrow's order of floats are modelled from their documentation. Refuted: NaN and -0.0 rows are lost; after a flush the statistics of strings and Booleans are not exact (harmless)."
  },
  {
   "property": "C82",
   "status": "partial",
   "theorems": [
    "C82_limit",
    "C82_admit",
    "C82_free_partial",
    "C82_live_partial",
    "C82_kill_partial",
    "C82_abort_partial",
    "C82_kill_lasting_partial",
    "C82_restart_partial",
    "C82_wedged_refuted",
    "C82_unsaved_refuted",
    "C82_failed_stream_refuted",
    "C82_kill_lost_refuted",
    "C82_kill_early_refuted",
    "C82_kill_runs_on_refuted"
   ],
   "note": "Proved for all histories: limit, exact admission, slots freed by answers and ends, a slot without execution only after a break-off, KILL exact and lasting without restart or after the removal, streams saved and restarted. False: slots of abandoned queries are lost for ever (wedged node), unsaved and failed streams keep a slot, kills undone by a crash or by a late save, kills of queries that have not started, hand out rows or are DDL do not stop them."
  },
  {
   "property": "C83",
   "status": "partial",
   "theorems": [
    "C83_files_stay_partial",
    "C83_query_partial",
    "C83_space_partial",
    "C83_edit_partial",
    "C83_new_id_partial",
    "C83_quiet",
    "C83_snapshot_loses_data_refuted",
    "C83_query_reads_other_file_refuted",
    "C83_crash_leaves_file_refuted"
   ],
   "note": "Proved for all histories without applied snapshots: every current file and every file held by an unfinished query is the one written for it (also over crashes); without restarts no unneeded file stays; an edit replaces exactly the files it names, also when a crash comes before it is installed. Refuted: after apply_snapshot the file ids start at 1 again, so the end of an older query removes live files, and an unfinished one reads the wrong file; a crash leaves compacted files on disk."
  },
  {
   "property": "C84",
   "status": "partial",
   "theorems": [
    "C84_fresh",
    "C84_bounded",
    "C84_kept",
    "C84_pops_least_recent",
    "C84_pop_refuted",
    "C84_pop_partial"
   ],
   "note": "Freshness, capacity, retention and order of eviction proved for every hash function and history; refuted: evicting from a cache that is not empty can yield nothing (C84_pop_refuted). The crate lru is modelled from its documentation."
  },
  {
   "property": "C85",
   "status": "partial",
   "theorems": [
    "C85_histogram_partial",
    "C85_histogram_complete",
    "C85_counter",
    "C85_average_refuted",
    "C85_average_partial",
    "C85_second_reader_refuted",
    "C85_average_loses_refuted",
    "C85_tables_refuted",
    "C85_tables_partial"
   ],
   "note": "Histograms proved exact as long as number and sum stay below 2^64 (complete with the largest threshold, which all histograms of the server have), in the metrics page and summed up in the system tables; counters proved; refuted: averages (divided by one too many, additions during a report lost, the second reader sees 0) and the single buckets in the system tables (not cumulative). Labels are not modelled; the register is C86."
  },
  {
   "property": "C86",
   "status": "partial",
   "theorems": [
    "C86_counters",
    "C86_once",
    "C86_page_takes_refuted",
    "C86_names_twice_refuted"
   ],
   "note": "Counters and exactly-once reporting proved over all histories; refuted: the system tables miss the figures of flushes that the metrics page showed first, and the page can have a name twice. Labels of the register and sub-registers are not modelled."
  }
 ]
}