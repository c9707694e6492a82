{
 "claims": [
  {
   "property": "C01",
   "status": "proved",
   "theorems": [
    "C01_int64_field_order",
    "C01_int32_field_order",
    "C01_int16_field_order"
   ],
   "note": ""
  },
  {
   "property": "C02",
   "status": "proved",
   "theorems": [
    "C02_uint64_field_order",
    "C02_uint32_field_order",
    "C02_uint16_field_order",
    "C02_byte_field_order"
   ],
   "note": ""
  },
  {
   "property": "C03",
   "status": "proved",
   "theorems": [
    "C03_big_int_field_order",
    "C03_big_int_field_fits",
    "C03_big_int_field_too_big"
   ],
   "note": ""
  },
  {
   "property": "C04",
   "status": "partial",
   "theorems": [
    "C04_desc_min_int_refuted",
    "C04_desc_bytes_refuted",
    "C04_desc_int64_partial",
    "C04_desc_int32_partial",
    "C04_desc_int16_partial",
    "C04_desc_uint64",
    "C04_desc_uint32",
    "C04_desc_uint16",
    "C04_desc_byte",
    "C04_desc_big_int",
    "C04_desc_bytes_partial"
   ],
   "note": "False as stated: the minimum integer and byte strings of different length are misordered (refuted). Proved for all other values."
  },
  {
   "property": "C05",
   "status": "proved",
   "theorems": [
    "C05_composite_key_injective",
    "C05_composite_key_total",
    "C05_two_strings_refuted"
   ],
   "note": "The restriction to one variable-length field is necessary (refuted without it)."
  },
  {
   "property": "C06",
   "status": "proved",
   "theorems": [
    "C06_composite_key_order",
    "C06_inner_string_refuted"
   ],
   "note": "The restriction on the variable-length field is necessary."
  },
  {
   "property": "C07",
   "status": "proved",
   "theorems": [
    "C07_key_roundtrip",
    "C07_key_prefix_decode_panics"
   ],
   "note": ""
  },
  {
   "property": "C08",
   "status": "proved",
   "theorems": [
    "C08_encoders_agree",
    "C08_readback",
    "C08_key_builder_programs_append"
   ],
   "note": ""
  },
  {
   "property": "C09",
   "status": "proved",
   "theorems": [
    "C09_key_order",
    "C09_keys_distinct",
    "C09_user_keys_apart",
    "C09_user_keys_distinct"
   ],
   "note": ""
  },
  {
   "property": "C10",
   "status": "proved",
   "theorems": [
    "C10_split_monotone",
    "C10_split_same_prefix"
   ],
   "note": ""
  },
  {
   "property": "C11",
   "status": "partial",
   "theorems": [
    "C11_prefix_upper_bound_refuted",
    "C11_prefix_upper_bound_partial",
    "C11_prefix_upper_bound_complete"
   ],
   "note": "False as stated when the prefix ends in 0xFF (refuted). Proved for all other prefixes; the interval never misses a key with the prefix."
  },
  {
   "property": "C12",
   "status": "proved",
   "theorems": [
    "C12_insert_adds_rows",
    "C12_insert_present_fails",
    "C12_insert_outcomes"
   ],
   "note": ""
  },
  {
   "property": "C13",
   "status": "proved",
   "theorems": [
    "C13_failed_call_changes_nothing",
    "C13_failed_unsafe_call_changes_nothing",
    "C13_cancelled_call_fails",
    "C13_cancelled_upsert_fails"
   ],
   "note": ""
  },
  {
   "property": "C14",
   "status": "partial",
   "theorems": [
    "C14_repeated_key_accepted_refuted",
    "C14_repeated_key_in_chunk_partial",
    "C14_repeated_key_in_batch_partial",
    "C14_insert_leaves_partial"
   ],
   "note": "False as stated: a repetition across the 5000-row chunks is accepted and corrupts the indexes (refuted for every chunk size). Proved within a chunk and through read-write batches. What any Insert that succeeds leaves, repeated keys or not, is proved exactly: the last version of each row and the index entries of all versions."
  },
  {
   "property": "C15",
   "status": "partial",
   "theorems": [
    "C15_update_replaces_rows",
    "C15_update_missing_fails",
    "C15_update_repeated_keys",
    "C15_update_repeated_keys_in_batch",
    "C15_update_across_chunks_refuted",
    "C15_update_leaves_partial",
    "C15_update_loses_entry_refuted"
   ],
   "note": "Proved for distinct keys, and for repeated keys within a chunk or through a read-write batch. Repeated keys in different chunks leave dangling index entries, or remove the entry of the row that ends up stored (both refuted for every chunk size). What any Update that succeeds leaves is proved exactly."
  },
  {
   "property": "C16",
   "status": "proved",
   "theorems": [
    "C16_upsert_merges_rows"
   ],
   "note": ""
  },
  {
   "property": "C17",
   "status": "partial",
   "theorems": [
    "C17_upsert_stores_other_row_refuted",
    "C17_upsert_stale_entry_refuted",
    "C17_upsert_folds_partial",
    "C17_what_is_stored_partial",
    "C17_key_kept_partial",
    "C17_upsert_leaves_partial"
   ],
   "note": "False as stated: the loop over repeated keys reads the wrong row and loses the stored version (two refutations). Proved for rows given in key order whose repeated keys are absent. What a call of one chunk stores under every key is proved exactly for all rows, orders and onConflict functions. That rows and indexes agree afterwards is proved for any number of chunks and any order if onConflict keeps the key of its first argument and a key is repeated only within a chunk and only if it is not stored. If keys are repeated across chunks only, what the call leaves is proved exactly: every version is merged with the row stored before the call, so earlier merges are lost."
  },
  {
   "property": "C18",
   "status": "partial",
   "theorems": [
    "C18_delete_removes_rows_partial",
    "C18_delete_stale_entry_refuted",
    "C18_stale_entry_breaks_scans_refuted",
    "C18_reused_key_wrong_scan_refuted",
    "C18_delete_any_record_partial"
   ],
   "note": "False as stated when the given record differs from the stored one in an indexed field (refuted, with what scans return afterwards); proved otherwise. For any given records it is proved that the rows are gone, that rows that stay keep all their entries, and that nothing is left but entries of deleted rows which the given record does not have."
  },
  {
   "property": "C19",
   "status": "partial",
   "theorems": [
    "C19_histories_stay_consistent_partial",
    "C19_any_deletes_partial",
    "C19_rows_any_history_partial",
    "C19_stale_delete_refuted"
   ],
   "note": "False for histories with a stale Delete (refuted); proved for all histories of calls with distinct keys and matching Deletes. With any Deletes it is proved that the rows are exact, that every stored row has all its entries, and that the only other entries are those a Delete with a record that does not have them left behind. The rows are proved exact for every history of calls, with no condition on rows, repeated keys, Deletes or onConflict."
  },
  {
   "property": "C20",
   "status": "proved",
   "theorems": [
    "C20_reads_return_latest_write",
    "C20_reads_any_history"
   ],
   "note": ""
  },
  {
   "property": "C21",
   "status": "partial",
   "theorems": [
    "C21_points_are_positional_partial",
    "C21_empty_encoding_refuted"
   ],
   "note": "False for rows that encode to zero bytes (refuted); proved for all others."
  },
  {
   "property": "C22",
   "status": "partial",
   "theorems": [
    "C22_scan_rows_partial",
    "C22_scan_all_rows_partial",
    "C22_primary_point",
    "C22_scan_omits_rows_refuted"
   ],
   "note": "Proved for all rows with a key not below that of the zero record; false for rows below it (refuted)."
  },
  {
   "property": "C23",
   "status": "partial",
   "theorems": [
    "C23_point_rows_partial",
    "C23_scans_never_miss",
    "C23_point_too_much_refuted"
   ],
   "note": "Proved for index keys not ending in 0xFF; other selectors return too much (refuted) but never too little."
  },
  {
   "property": "C24",
   "status": "partial",
   "theorems": [
    "C24_range_rows_partial",
    "C24_get_range_partial",
    "C24_range_too_much_refuted",
    "C24_range_extends_refuted",
    "C23_scans_never_miss"
   ],
   "note": "Proved for upper ends whose entry does not end in 0xFF and that no stored primary key extends; false otherwise (refuted), but rows are never missed."
  },
  {
   "property": "C25",
   "status": "partial",
   "theorems": [
    "C25_multi_rows_partial",
    "C25_get_ranges_partial",
    "C25_walk",
    "C25_every_selector",
    "C25_exact_selectors",
    "C25_get_every_range",
    "C25_walk_every_selector",
    "C25_empty_selector_refuted",
    "C23_scans_never_miss"
   ],
   "note": "Proved for non-empty exact selectors, for scans and any walk of the iterator; for every other selector with short keys the rows visited are characterised exactly, extra rows included; selectors without elements panic (refuted)."
  },
  {
   "property": "C26",
   "status": "partial",
   "theorems": [
    "C26_scan_primary",
    "C26_scan_secondary_partial",
    "C26_at_most_once_partial",
    "C26_pass_over_never_ends",
    "C26_primary_every_selector",
    "C26_secondary_every_selector_partial",
    "C26_skipping_diverges_refuted",
    "C26_double_get_panics_refuted",
    "C26_double_get_shifts_refuted"
   ],
   "note": "Proved for every callback on the primary index and for callbacks on secondary indexes that load steadily; for every callback that loads at most one row per call the scan is described exactly, including that it offers a row it has read ahead until the callback loads it. False for others (refuted)."
  },
  {
   "property": "C27",
   "status": "partial",
   "theorems": [
    "C27_query_rows_partial",
    "C27_every_selector_partial",
    "C27_builder_chain",
    "C27_overflow_loses_rows_refuted",
    "C27_huge_limit_panics_refuted"
   ],
   "note": "Proved for exact selectors and offsets and limits below 2^63, including that no row is read once enough are found; larger ones lose rows or panic (refuted)."
  },
  {
   "property": "C28",
   "status": "partial",
   "theorems": [
    "C28_order_partial",
    "C28_order_every_selector_partial",
    "C28_after_partial",
    "C28_after_every_row",
    "C28_after_reverse_exact",
    "C28_after_reverse_refuted",
    "C28_after_in_front_refuted",
    "C28_after_behind_panics_refuted"
   ],
   "note": "Proved with Order, and without Order for forward queries with a row inside the selection; false with Reverse and for rows outside (refuted), where it is proved what is returned instead for every row and selector."
  },
  {
   "property": "C29",
   "status": "partial",
   "theorems": [
    "C29_paging_partial",
    "C29_paging_ordered_partial",
    "C29_single_selections_ascend",
    "C29_reverse_never_ends",
    "C29_points_never_end_refuted"
   ],
   "note": "Proved for ascending selections and for ordered queries; paging over points of the primary index never ends (refuted), and neither does paging with Reverse, for every single selection of two rows or more."
  },
  {
   "property": "C30",
   "status": "partial",
   "theorems": [
    "C30_intersects_partial",
    "C30_every_selector_partial",
    "C30_refuses_parts",
    "C30_reverse_ignored_refuted",
    "C30_after_drops_offset_refuted",
    "C30_batch_rows_lost_refuted",
    "C30_nested_ignored_refuted"
   ],
   "note": "Proved for intersections of committed rows; false for rows in a batch, Reverse, After with Offset or Limit alone, and nested intersections (refuted)."
  },
  {
   "property": "C31",
   "status": "proved",
   "theorems": [
    "C31_calls_change_only_their_table",
    "C31_unsafe_calls_change_only_their_table",
    "C31_calls_read_only_their_table",
    "C31_other_tables_are_outside",
    "C31_reads_depend_on_the_row_only"
   ],
   "note": ""
  },
  {
   "property": "C32",
   "status": "proved",
   "theorems": [
    "C32_batch_reads_its_writes",
    "C32_batch_equals_direct"
   ],
   "note": ""
  },
  {
   "property": "C33",
   "status": "partial",
   "theorems": [
    "C33_read_write_batch_partial",
    "C33_write_only_silent_refuted",
    "C33_write_only_exact",
    "C33_nil_batch_panics",
    "C33_foreign_selector_silent_refuted"
   ],
   "note": "Proved for read-write batches; false for write-only batches (refuted), for which it is proved what every read returns instead."
  },
  {
   "property": "C34",
   "status": "partial",
   "theorems": [
    "C34_commit_partial",
    "C34_empty_commit",
    "C34_contents",
    "C34_apply_partial",
    "C34_reset",
    "C34_close_partial",
    "C34_commit_again",
    "C34_every_event",
    "C34_database_is_commits",
    "C34_protocol_partial",
    "C34_committed_after_write_partial",
    "C34_on_close_never_runs_refuted",
    "C34_close_runs_committed_refuted",
    "C34_apply_runs_committed_refuted",
    "C34_veto_skips_on_error_refuted"
   ],
   "note": "The commit protocol is proved for all programs on batches. False parts, refuted: OnClose never runs, Close and Apply run OnCommitted without a commit, a veto does not run OnError."
  },
  {
   "property": "C35",
   "status": "partial",
   "theorems": [
    "C35_exact_partial",
    "C35_increasing_partial",
    "C35_parts_partial",
    "C35_overflow_partial",
    "C35_batch_ids_partial",
    "C35_ids_assigned",
    "C35_live_ids_partial",
    "C35_reset_id_partial",
    "C35_clock_back_refuted",
    "C35_batch_ids_exact_partial",
    "C35_batch_ids_repeat_refuted"
   ],
   "note": "Proved while the clock does not go back; false when it does, and for batch ids after an overflow (refuted)."
  },
  {
   "property": "C36",
   "status": "partial",
   "theorems": [
    "C36_reindex_exact_partial",
    "C36_rows_untouched",
    "C36_reindex_again_partial",
    "C36_add_index_consistent_partial",
    "C36_index_255_refuted",
    "C36_index_zero_erases_refuted"
   ],
   "note": "Proved for index ids 1..254 while no other call writes to the table: exact rebuild, restart after any failed write, rows never touched. False for id 255 (stale entries stay) and id 0 (rows are erased), refuted."
  },
  {
   "property": "C37",
   "status": "partial",
   "theorems": [
    "C37_add_index_partial",
    "C37_duplicate_or_not",
    "C37_duplicate_blocks_refuted"
   ],
   "note": "Proved without a duplicate id. False with one: the lock stays held and the indexes in front of the duplicate are added (refuted)."
  },
  {
   "property": "C38",
   "status": "proved",
   "theorems": [
    "C38_any_schedule",
    "C38_returns"
   ],
   "note": "Calls are state machines over the same database and filter; a step is one chunk (its iterator snapshot) or the commit. The filter calls of one chunk are not interleaved with others."
  },
  {
   "property": "C39",
   "status": "partial",
   "theorems": [
    "C39_inserts_refuted",
    "C39_updates_refuted",
    "C39_upserts_refuted",
    "C39_rows_partial",
    "C39_rows_upsert_partial"
   ],
   "note": "False of the code: nothing locks a row between reading and committing. What holds is that the rows follow the order of return for Insert, Update and Delete, and for Upsert with rows merged with some version they had before."
  },
  {
   "property": "C40",
   "status": "proved",
   "theorems": [
    "C40_no_false_negatives",
    "C40_new_reports_nothing"
   ],
   "note": ""
  },
  {
   "property": "C41",
   "status": "partial",
   "theorems": [
    "C41_saved_and_loaded",
    "C41_promises_kept",
    "C41_save_loads_partial",
    "C41_load_checks",
    "C41_stores",
    "C41_changed_count_refuted",
    "C41_clear_then_save_refuted"
   ],
   "note": "No key is lost between Save and Load, for all histories and interruptions with one configuration. False parts, refuted: a changed bucket count with a prefix ending in 0xFF loses keys, a Save after Clear cannot be loaded."
  },
  {
   "property": "C42",
   "status": "partial",
   "theorems": [
    "C42_initialized_filter_partial",
    "C42_stale_filter_refuted",
    "C42_rescan_omits_refuted",
    "C42_torn_count_refuted"
   ],
   "note": "False as stated: rows committed after the last Save are missing from the loaded filter, the rescan omits rows in front of the zero record, a torn count file makes Load panic. Proved when the store vouches for all rows or cannot be loaded."
  },
  {
   "property": "C43",
   "status": "partial",
   "theorems": [
    "C43_separate_buckets_partial",
    "C43_lost_bit_refuted",
    "C43_lost_mark_refuted"
   ],
   "note": "False for keys of the same bucket (refuted: a bit or the changed mark is lost). Proved for every schedule of keys of different buckets."
  },
  {
   "property": "C44",
   "status": "proved",
   "theorems": [
    "C44_filter_invisible_to_writes",
    "C44_filter_invisible_to_reads",
    "C44_bloom_filter",
    "C44_uninitialized",
    "C44_initializable_lives"
   ],
   "note": ""
  },
  {
   "property": "C45",
   "status": "partial",
   "theorems": [
    "C45_files_partial",
    "C45_which_keys_partial",
    "C45_end_ignored_refuted",
    "C45_keys_collide_refuted",
    "C45_delete_fails_refuted"
   ],
   "note": "False as stated: the end of the range is ignored, keys share files (refuted). What holds is stated over file names and over the bytes of the keys."
  },
  {
   "property": "C46",
   "status": "partial",
   "theorems": [
    "C46_roundtrip_partial",
    "C46_fresh_target_partial",
    "C46_missing_table",
    "C46_table_twice",
    "C46_other_table_refuted",
    "C46_index_in_path_refuted",
    "C46_table_in_path_refuted",
    "C46_stale_rows_refuted",
    "C46_index_lost_refuted"
   ],
   "note": "Proved for all contents, file splits and writes made meanwhile, with the hypotheses on ids and names that the refutations show to be needed: table 1 also restores table 10, paths containing index or table_N, rows left in the target, an index emptied during the dump."
  },
  {
   "property": "C47",
   "status": "proved",
   "theorems": [
    "C47_index_ids"
   ],
   "note": ""
  },
  {
   "property": "C48",
   "status": "partial",
   "theorems": [
    "C48_open_accepts",
    "C48_record_kept",
    "C48_first_open_records",
    "C48_record_unique",
    "C48_version_reported",
    "C48_migrated",
    "C48_not_migrated",
    "C48_migration_crash_partial",
    "C48_migration_crash_refuted",
    "C48_first_open_crash_refuted",
    "C48_migration_third_version_refuted"
   ],
   "note": "What Open accepts is proved exactly. Crash safety of the migration is false while the record is being rewritten (refuted: no version, or a third version, opens the directory), proved at all other points."
  },
  {
   "property": "C49",
   "status": "proved",
   "theorems": [
    "C49_one_owner",
    "C49_get_is_free",
    "C49_iterator_buffers",
    "C49_size",
    "C49_close_again",
    "C49_double_put_shares"
   ],
   "note": ""
  },
  {
   "property": "C50",
   "status": "partial",
   "theorems": [
    "C50_order_bytes_desc_refuted",
    "C50_order_bytes_desc",
    "C50_record_kept_partial",
    "C50_same_key_partial"
   ],
   "note": "False for OrderBytes with DESC, which complements the caller's bytes in place (refuted for every non-empty field). Proved for every other chain of builder calls."
  },
  {
   "property": "C51",
   "status": "partial",
   "theorems": [
    "C51_builder_shared_refuted",
    "C51_full_builder_partial",
    "C51_query_shared_refuted",
    "C51_query_chain_partial",
    "C51_full_query_partial"
   ],
   "note": "False for builders and queries whose slices have free room (refuted). Proved for single chains and for extensions of a full builder or query."
  },
  {
   "property": "C52",
   "status": "partial",
   "theorems": [
    "C52_leftovers_partial",
    "C52_unreleased_partial",
    "C52_no_pool_partial",
    "C52_reused_buffer_refuted"
   ],
   "note": "False as stated: a released buffer is reused with its old content (refuted for all values). Proved without a buffer pool and before the first release; in general the result is left-over encodings followed by the right one."
  },
  {
   "property": "C53",
   "status": "proved",
   "theorems": [
    "C53_eval",
    "C53_total",
    "C53_and",
    "C53_or",
    "C53_de_morgan",
    "C53_nil_reached",
    "C53_nil_skipped",
    "C53_eval_any"
   ],
   "note": ""
  },
  {
   "property": "C54",
   "status": "partial",
   "theorems": [
    "C54_mutual_exclusion",
    "C54_whole_blocks",
    "C54_all_return_partial",
    "C54_blocked_forever_refuted"
   ],
   "note": "Mutual exclusion and whole blocks hold for all functions and schedules. That nobody waits forever is false if a function panics or uses its own SyncBatch (refuted), proved otherwise for all fair schedules."
  },
  {
   "property": "C55",
   "status": "proved",
   "theorems": [
    "C55_chunks"
   ],
   "note": ""
  },
  {
   "property": "C56",
   "status": "partial",
   "theorems": [
    "C56_scan_rows_partial",
    "C56_scan_index_rows_partial",
    "C56_for_each_secondary_partial",
    "C56_for_each_primary_partial",
    "C56_for_each_same",
    "C56_collect_same",
    "C56_for_each_drops_batch_refuted",
    "C56_error_loses_rows_refuted",
    "C56_any_selector_panics_refuted"
   ],
   "note": "Same rows in the same order are proved for Scan and ScanIndex (also through batches) and for the ForEach variants without a batch, on sound databases and, relative to the table's own scans, on every content with every callback. False parts, refuted: ForEach drops the batch, rows before an error are lost, selectors of type any panic."
  },
  {
   "property": "C57",
   "status": "partial",
   "theorems": [
    "C57_update_rows_independent_partial",
    "C57_upsert_rows_independent_partial",
    "C57_update_depends_on_other_rows_refuted",
    "C57_upsert_depends_on_other_rows_refuted"
   ],
   "note": "False as stated for serializers that keep omitted fields of the target (refuted for Update and Upsert); proved for serializers that overwrite it and calls without repeated keys (with them another row of the call can be read, C17)."
  },
  {
   "property": "C58",
   "status": "proved",
   "theorems": [
    "C58_unsafe_insert_adds_rows",
    "C58_unsafe_update_replaces_rows"
   ],
   "note": ""
  },
  {
   "property": "C59",
   "status": "partial",
   "theorems": [
    "C59_separate_prefixes_partial",
    "C59_tables_untouched",
    "C59_default_prefix_refuted"
   ],
   "note": "False with the default prefix, which every filter shares (refuted). Proved for prefixes of which neither starts with the other, for the database as the store."
  },
  {
   "property": "C60",
   "status": "partial",
   "theorems": [
    "C60_key_bytes_class",
    "C60_row_class",
    "C60_entry_class_partial",
    "C60_order_only_index_refuted"
   ],
   "note": "False for decoded entries whose index part is empty (refuted). Proved for key bytes, rows and all other entries."
  },
  {
   "property": "C61",
   "status": "partial",
   "theorems": [
    "C61_open_marks",
    "C61_pairs_kept",
    "C61_unreadable_version_refuted"
   ],
   "note": "False for a data version that is not a number: it is replaced (refuted). The rest is proved; what Open refuses is C48_open_accepts."
  },
  {
   "property": "C62",
   "status": "partial",
   "theorems": [
    "C62_open_keeps_tables_partial",
    "C62_user_keys_partial",
    "C62_table_zero_refuted"
   ],
   "note": "Proved for table ids 1..255; false for id 0, whose rows share their area with the data version (refuted)."
  },
  {
   "property": "C63",
   "status": "proved",
   "theorems": [
    "C63_crashes",
    "C63_left",
    "C63_safe",
    "C63_empty_call"
   ],
   "note": "pebble's log is modelled as the sequence of states with their sync flags; batches in the history are ones whose calls all succeed."
  },
  {
   "property": "C64",
   "status": "partial",
   "theorems": [
    "C64_live_paging_partial",
    "C64_live_paging_ends",
    "C64_ordered_paging_refuted"
   ],
   "note": "queries without Order, Reverse and Offset on exact selectors whose rows ascend (always for single points and ranges); with Order a page starts over if the After row was deleted."
  },
  {
   "property": "C65",
   "status": "partial",
   "theorems": [
    "C65_live_scan",
    "C65_untouched_rows",
    "C65_still",
    "C65_one_moment_refuted",
    "C65_deleted_row_fails_refuted",
    "C65_once_refuted"
   ],
   "note": "the exact result is proved for all selectors, both directions and any history; that it is the table of one moment, that deletions do not make it fail, and that several points or ranges return each row once, is refuted."
  },
  {
   "property": "C66",
   "status": "partial",
   "theorems": [
    "C66_among_writers_partial",
    "C66_new_rows",
    "C66_insert_batch",
    "C66_alone",
    "C66_delete_refuted",
    "C66_update_refuted",
    "C66_old_insert_refuted"
   ],
   "note": "exact for keys nobody else writes and if the others only insert new rows; refuted for deletions and updates meanwhile and for inserts that began before AddIndex."
  },
  {
   "property": "C67",
   "status": "partial",
   "theorems": [
    "C67_inspect_rows_partial",
    "C67_inspect_paging_partial",
    "C67_filter_exact",
    "C67_any_filter_partial",
    "C67_names",
    "C67_no_table",
    "C67_lists",
    "C67_filter_rounds_refuted",
    "C67_filter_wraps_refuted",
    "C67_selector_misses_refuted",
    "C67_primary_selector_refuted",
    "C67_named_types_refuted",
    "C67_struct_tables_refuted",
    "C67_null_refuted"
   ],
   "note": "Full statement false: values that do not fit are converted with loss, selectors that give the first fields miss rows of descending indexes, the selector of the primary index is ignored, fields of named types and tables of structs panic. Proved for values that fit their fields and selectors that scans are exact for. Filters with null values are not modelled."
  },
  {
   "property": "C68",
   "status": "partial",
   "theorems": [
    "C68_remote_rows_partial",
    "C68_remote_paging_partial",
    "C68_integers_rounded",
    "C68_bytes_base64",
    "C68_big_integers_refuted",
    "C68_endless_pages_refuted",
    "C68_bytes_refuted"
   ],
   "note": "Full statement false for integers that float64 does not have and for []byte. Proved for requests and rows whose values JSON keeps. HTTP and its errors are not modelled; text that is not UTF-8 is changed by an arbitrary function."
  },
  {
   "property": "C69",
   "status": "partial",
   "theorems": [
    "C69_writes",
    "C69_calls",
    "C69_scans_partial",
    "C69_panic_refuted",
    "C69_dump_partial",
    "C69_dump_indexes_refuted",
    "C69_load_partial",
    "C69_load_refuted",
    "C69_reindex_partial",
    "C69_reindex_refuted",
    "C69_unsafe_update_refuted",
    "C69_open_refuted"
   ],
   "note": "Proved for the writes, Exist, multi-row reads, Version, migration, Save, Intersect and iterator walks on every path including panics, and for Get, scans and queries on every path that returns. Refuted for scans with a panicking callback, Dump with indexes (every time), Load (every time it succeeds), ReIndex and AddIndex on errors, UnsafeUpdate (every time it succeeds), Open on a wrong data version."
  },
  {
   "property": "C70",
   "status": "proved",
   "theorems": [
    "C70_insert",
    "C70_update",
    "C70_upsert",
    "C70_delete",
    "C70_unsafe_insert",
    "C70_unsafe_update",
    "C70_exist",
    "C70_get_point",
    "C70_get_points",
    "C70_builder_functions"
   ],
   "note": "The user's key functions append, as every chain of builder calls does (C70_builder_functions). Scans and queries are C71; ReIndex is not part of this model."
  },
  {
   "property": "C71",
   "status": "partial",
   "theorems": [
    "C71_primary_scan",
    "C71_scan_partial",
    "C71_scan_index",
    "C71_filter_scan",
    "C71_query",
    "C71_intersect",
    "C71_key_after_get_refuted",
    "C71_kept_key_refuted"
   ],
   "note": "Primary scans with every callback that looks at its key during the call; scans of any index, ScanIndex, the filter's scan and queries without Intersects with callbacks that look before Get and call it at most once (the library's own all do). Refuted for callbacks that look at the key behind Get, or keep it. Queries with Intersects, whose keys become strings and slices of unknown capacity (utils/unsafe.go), reuse the buffers of one index for the next. The after row's own key in queries without Intersects and the buffers of selectorWithAfter, all freshly made, are not on memory."
  },
  {
   "property": "C72",
   "status": "proved",
   "theorems": [
    "C72_new_database",
    "C72_any_database"
   ],
   "note": "A forward simulation between the model of the code and the abstract database. A batch in which a call failed is spoiled: its content and what a commit of it would do are outside the claim (C13 says what a failed call leaves in a batch)."
  },
  {
   "property": "C73",
   "status": "partial",
   "theorems": [
    "C73_background_partial",
    "C73_ends",
    "C73_same_row_refuted"
   ],
   "note": "Proved for calls on different rows, if a loadable store vouches for the initial rows (C41) and no row lies in front of the zero record (C42). Refuted for calls on the same row: an Update that has read its row while it is deleted and the filter is initialised leaves a row that the filter denies. Load, Clear, a round of a call and a single Add are one step each (C43 is about the Adds themselves)."
  },
  {
   "property": "C74",
   "status": "partial",
   "theorems": [
    "C74_any_schedule",
    "C74_dump_ends",
    "C74_files_stay",
    "C74_existing_refused",
    "C74_interrupted_partial",
    "C74_refused_exactly_partial",
    "C74_nothing_restored_refuted",
    "C74_half_restored_refuted",
    "C74_index_missing_refuted",
    "C74_still_writing_refuted"
   ],
   "note": "Proved for every schedule: a finished Dump is that of C46. Proved for every interruption: Restore fails and changes nothing, or it restores the first keys of each table and index, correct as far as they go, and completely where the goroutine had finished. Refuted: that an unfinished dump is refused; nothing in the directory tells that the dump is complete. Files that were closed are assumed to be on disk, a file that was not closed is refused by pebble; steps on files succeed."
  },
  {
   "property": "C75",
   "status": "partial",
   "theorems": [
    "C75_batches_partial",
    "C75_two_batches_refuted",
    "C75_beside_batch_refuted",
    "C75_twice_inserted_refuted",
    "C75_index_beside_batch_refuted"
   ],
   "note": "Proved for all interleavings in which no row or own key is written by one party while another open batch holds a change to it, and no index is added while a batch is open. Refuted otherwise: batches that share a row corrupt indexes or overwrite an Insert, though every call succeeds. Calls are atomic (C38, C64, C65 are about interleaved steps); the batches are read-write."
  },
  {
   "property": "C76",
   "status": "partial",
   "theorems": [
    "C76_remote_partial",
    "C76_any_response",
    "C76_query_in_url_refuted",
    "C76_accept_all_refuted",
    "C76_odd_names_refuted"
   ],
   "note": "Proved for all base URLs without a query or a fragment, all headers, tables, names and requests. Refuted: with a query in the URL a call can succeed with the answer to another; a client that sends Accept: */* is refused; a table whose name is not UTF-8 is listed but cannot be asked for. HTTP itself, resty and the text of JSON are oracles (trees instead of text, invalid UTF-8 replaced); arrays, objects and nulls as filter values are not modelled."
  },
  {
   "property": "C77",
   "status": "partial",
   "theorems": [
    "C77_inspect_partial",
    "C77_backup_partial",
    "C77_equals_refuted",
    "C77_local_refuted",
    "C77_status_refuted",
    "C77_table_id_refuted",
    "C77_no_database_refuted",
    "C77_other_format_refuted"
   ],
   "note": "Proved for every command, inspector and list of headers name=value with one =, and for dump and restore of tables 0 to 255 under the conditions of C46. Refuted: a header value with an = in it, the local path shown in the usage, the exit status, table ids over 255, a database that is not there, and one of another format version. The parsing of the command line by urfave/cli and the deadline of query are not modelled."
  },
  {
   "property": "C78",
   "status": "partial",
   "theorems": [
    "C78_life_partial",
    "C78_life_from_partial",
    "C78_opens_partial",
    "C78_forgotten_index_refuted",
    "C78_forgotten_delete_refuted",
    "C78_early_death_refuted"
   ],
   "note": "Proved for every life in which a process declares by NewTable only indexes that the process before it had (any subset, any order), adding others with AddIndex and reindexing; every Open succeeds unless a process died inside its first Open or a migration. Refuted: an index that one process does not declare gives wrong answers to a later one that declares it again, and a crash inside the first Open makes the directory unusable. A second Close in one process is not modelled."
  },
  {
   "property": "C79",
   "status": "partial",
   "theorems": [
    "C79_live_intersection",
    "C79_untouched_rows",
    "C79_still",
    "C79_one_moment_refuted",
    "C79_no_failure_refuted"
   ],
   "note": "Proved exactly what the query returns for every choice of moments, and that it is the query of C30 when nothing changes. Refuted: it can return a row that matched at no moment, and fails with ErrNotFound if a row it matched is deleted before it is fetched. Without batch; two iterators of one part with the same bounds made within the same step see the same moment."
  },
  {
   "property": "C80",
   "status": "partial",
   "theorems": [
    "C80_live_query",
    "C80_live_after",
    "C80_untouched_rows",
    "C80_still",
    "C80_index_order_refuted",
    "C80_unneeded_row_refuted"
   ],
   "note": "Proved exactly what the query returns for every choice of moments: which rows are listed, passed over, fetched and lost, and when a lost row fails the query; it is the query of C27-C29 when nothing changes. Refuted: the rows need not come in index order, a query with Limit can return a row that was first at no moment, and a deleted row behind the window can fail the query. After without Order only forwards over one point or range; without batch."
  },
  {
   "property": "C81",
   "status": "partial",
   "theorems": [
    "C81_context_values",
    "C81_write_error_or_same",
    "C81_unsafe_error_or_same",
    "C81_scan_error_or_same",
    "C81_query_error_or_same",
    "C81_cancelled_write",
    "C81_cancelled_unsafe",
    "C81_cancelled_scan",
    "C81_cancelled_query",
    "C81_cancelled_intersect",
    "C81_foreign_value_refuted",
    "C81_get_ignores_refuted",
    "C81_scan_unnoticed_refuted"
   ],
   "note": "Proved for every moment of cancellation and every state of the database. Refuted: the keys are plain strings, so a value stored by another package under the same string makes the retrieval panic; Get ignores its context; a scan by an index looks at it once per block and may succeed although it was cancelled long before its end; a cancelled call with nothing to write or visit succeeds. After without Order is left out of the last part for queries."
  },
  {
   "property": "C82",
   "status": "partial",
   "theorems": [
    "C82_handler_partial"
   ],
   "note": "An equivalence between the handler and a relation written with the literal paths, names and statuses. Missing: bodies that mention a field twice (Go merges objects and ignores a second null), arrays and objects as values of fields."
  },
  {
   "property": "C83",
   "status": "partial",
   "theorems": [
    "C83_iterator_partial",
    "C83_db_iterator",
    "C83_multi_seek_refuted",
    "C83_write_only",
    "C83_unknown_selector",
    "C83_seek_prefix",
    "C83_prefix_never_panics",
    "C83_after_prefix_seek",
    "C83_prefix_prev_refuted",
    "C83_prefix_outside_refuted",
    "C83_prefix_failed"
   ],
   "note": "Seeks of iterators of several points or ranges panic (\"implement me\"). SeekPrefixGE of the iterators of DB.Iter and Batch.Iter (as pebble documents it) followed by Next visits exactly the keys with the prefix; Prev behind it is an error, and so is a key beyond a bound of another prefix. Not covered: Next or Prev before the iterator is positioned (except on failed iterators)."
  },
  {
   "property": "C84",
   "status": "partial",
   "theorems": [
    "C84_callbacks_see_rows",
    "C84_scans_return_rows",
    "C84_queries_return_rows",
    "C84_queries_after_any_history",
    "C84_rows_after_any_history",
    "C84_scan_after_any_history_partial",
    "C84_primary_scan_partial",
    "C84_primary_range_partial",
    "C84_primary_multi_partial",
    "C84_primary_callbacks_partial",
    "C84_points_partial",
    "C84_primary_query_partial",
    "C84_primary_order_partial",
    "C84_index_mismatch_refuted",
    "C84_moved_row_refuted"
   ],
   "note": "That rows come back only if stored and accepted holds in full. Exactness on the primary index needs the selectors of C22 to C28 and onConflicts that keep the key of the row. On secondary indexes it is refuted: wrong entries make scans return rows that do not match, or fail."
  },
  {
   "property": "C85",
   "status": "partial",
   "theorems": [
    "C85_call_does_a_part_partial",
    "C85_batch_stays_consistent_partial",
    "C85_commit_after_failures_partial",
    "C85_failed_call_leaves_nothing_refuted"
   ],
   "note": "Refuted: rows done before the failure stay in the batch. Proved: what is left is exactly what the call does with a first part of its rows (the chunks before, and of the failing chunk the rows with the smallest keys), so that rows, entries and filter agree after any history of calls of which any fail, also once committed."
  },
  {
   "property": "C86",
   "status": "partial",
   "theorems": [
    "C86_error_of_the_first_fault_partial",
    "C86_one_order",
    "C86_one_error",
    "C86_same_answer_partial",
    "C86_same_answer_in_batch_partial",
    "C86_repeated_keys_refuted"
   ],
   "note": "Proved for rows with distinct keys (and Deletes of records equal to the stored ones): the first fault in the one order is the error, and any two runs that differ in map orders and sorts answer and store the same. Refuted for a key given twice in one Update: sort.Sort is not stable, so which of the two rows is stored depends on the order it leaves ties in."
  },
  {
   "property": "C87",
   "status": "partial",
   "theorems": [
    "C87_one_selection_partial",
    "C87_rows_of_one_selection_partial",
    "C87_several_selections_partial",
    "C87_several_selections_refuted",
    "C87_unmade_iterator_refuted",
    "C87_get_of_points_refuted",
    "C87_get_refuted",
    "C87_update",
    "C87_insert_of_new_rows_partial",
    "C87_upsert_of_new_rows_partial",
    "C87_insert_refuted",
    "C87_upsert_refuted",
    "C87_reindex_partial",
    "C87_reindex_refuted",
    "C87_dump_refuted",
    "C87_no_failing_reads"
   ],
   "note": "Proved for any set of failing reads: scans of one point or range return all rows or an error; an Update does what it should or fails and changes nothing; Inserts that should succeed and Upserts of new rows are as without failures; and without failing reads the model is that of the other claims. Refuted for scans of several points or ranges, for an iterator that cannot be made, for Get and Exist, for Insert and Upsert over stored rows, for ReIndex and for Dump; for several selections and ReIndex it is proved which part is read."
  },
  {
   "property": "C88",
   "status": "partial",
   "theorems": [
    "C88_one_selection_partial",
    "C88_several_selections_partial",
    "C88_several_selections_refuted",
    "C88_intersects_partial",
    "C88_intersects_refuted",
    "C88_unmade_iterator_refuted",
    "C88_no_failing_reads"
   ],
   "note": "Proved for any set of failing reads: a query over one point or range without Intersects, After included, returns its answer or an error; a query over several points or ranges, or with Intersects, returns an error or its answer for a part of the rows, so never a row it should not; without failing reads it is the query of C27 to C30. Refuted beyond that: several points or ranges, any Intersect, and an iterator that cannot be made lose rows without an error."
  },
  {
   "property": "C89",
   "status": "partial",
   "theorems": [
    "C89_stored_keys_partial",
    "C89_touched_keys",
    "C89_contract",
    "C89_unsplittable",
    "C89_raw_key_refuted",
    "C89_filter_prefix_refuted"
   ],
   "note": "Proved for every reached database; table calls also delete only keys that can be split; the contract (prefix of a prefix, order of prefixes, order of suffixes) holds for all keys that can be split, and Split panics on all others. Refuted for keys given to DB.Set directly and for filters stored in the database under a prefix of the caller."
  },
  {
   "property": "C90",
   "status": "partial",
   "theorems": [
    "C90_filters_partial",
    "C90_one_filter",
    "C90_full_prefix",
    "C90_spare_refuted",
    "C90_shared_prefix_refuted"
   ],
   "note": "Proved: filters whose prefixes do not lie in each other's free room do what filters with prefix values do, so everything proved about those holds (C40 to C45); one filter alone always works; a prefix without spare capacity leaves all memory unchanged. Refuted: with spare capacity the caller's bytes behind the prefix are overwritten, and with two prefixes cut from one buffer a saved key is lost without an error."
  },
  {
   "property": "C91",
   "status": "partial",
   "theorems": [
    "C91_tries_partial",
    "C91_last_try_partial",
    "C91_among_others_partial",
    "C91_merge_refuted"
   ],
   "note": "Proved for Insert, Update, Delete and every Upsert whose onConflict leaves a row unchanged that was already merged (in particular one that replaces), on the whole database byte by byte; and while others write rows with other keys. Refuted for an Upsert that accumulates: it is applied once per committed try."
  },
  {
   "property": "C92",
   "status": "partial",
   "theorems": [
    "C92_permuted_partial",
    "C92_parts_partial",
    "C92_either_order_partial",
    "C92_as_alone_partial",
    "C92_any_order_partial",
    "C92_repeated_refuted"
   ],
   "note": "Proved byte by byte for calls whose primary keys are distinct and Deletes of the stored records. Refuted for an Upsert with the same primary key twice: the order decides what is stored, and one call leaves index entries that two calls do not."
  },
  {
   "property": "C93",
   "status": "partial",
   "theorems": [
    "C93_close_partial",
    "C93_twice",
    "C93_closing_function_refuted",
    "C93_panic_refuted",
    "C93_compact_partial",
    "C93_compact_refuted"
   ],
   "note": "Proved for functions that neither close the database nor panic. Refuted otherwise: a function that calls Close recurs without end; after a panic the other functions do not run and the database stays open. Compact covers every key but those of index 255 of table 255 (refuted)."
  },
  {
   "property": "C94",
   "status": "partial",
   "theorems": [
    "C94_no_history_partial",
    "C94_insert_undone",
    "C94_delete_undone",
    "C94_update_undone",
    "C94_nothing_new",
    "C94_index_later_partial",
    "C94_stale_refuted"
   ],
   "note": "Proved for histories of calls with distinct keys and Deletes of records that agree with the stored ones in indexed fields. Refuted for a Delete of another record: every Get answers the same and index entries are left."
  },
  {
   "property": "C95",
   "status": "partial",
   "theorems": [
    "C95_moved_partial",
    "C95_moved_bare_partial",
    "C95_filter_refuted",
    "C95_over_rows_refuted"
   ],
   "note": "Proved under the conditions of C46_roundtrip_partial (names of tables and of the directory, no index emptied during the dump), for targets without the table and for filters that cover the restored rows. Refuted for a table whose filter was made before the restore, and for a target that has rows of the table."
  },
  {
   "property": "C96",
   "status": "partial",
   "theorems": [
    "C96_offset_pages_partial",
    "C96_intersects_pages_partial",
    "C96_change_refuted"
   ],
   "note": "Proved with After only together with Order (or Filter, when intersecting); offsets below 2^63. Refuted for a table that changes between the pages: a row that is there all the time can be left out."
  },
  {
   "property": "C97",
   "status": "proved",
   "theorems": [
    "C97_upsert_inserts",
    "C97_upsert_updates",
    "C97_update_in_two"
   ],
   "note": "For calls that are not cancelled and whose commit succeeds; a batch argument is not given."
  },
  {
   "property": "C98",
   "status": "partial",
   "theorems": [
    "C98_any_index_partial",
    "C98_intersects_partial",
    "C98_ties_refuted"
   ],
   "note": "No stored row selected by two points or ranges of a query over one index. Ties are refuted."
  },
  {
   "property": "C99",
   "status": "partial",
   "theorems": [
    "C99_filter_partial",
    "C99_filter_order_partial",
    "C99_filter_intersects_partial",
    "C99_filter_intersects_order_partial",
    "C99_limit_refuted",
    "C99_twice_refuted"
   ],
   "note": "Without After. Refuted for a result that Limit has cut and for Filter called twice."
  },
  {
   "property": "C100",
   "status": "proved",
   "theorems": [
    "C100_any_parts"
   ],
   "note": "For queries that are not cancelled and index parts shorter than 2^32-1 bytes; parts in Intersects have no Filter, Order, After, Offset or Limit, as Execute demands."
  }
 ]
}
