{
 "claims": [
  {
   "property": "C01",
   "status": "proved",
   "theorems": [
    "wal_replay_exact",
    "wal_durable_iff"
   ],
   "note": "Ids below 2^64; calls that throw (payload above 2^30 bytes) are excluded because they write nothing."
  },
  {
   "property": "C02",
   "status": "proved",
   "theorems": [
    "wal_torn_tail"
   ],
   "note": "Any byte prefix of any log; the result is that of the longest whole number of frames."
  },
  {
   "property": "C03",
   "status": "partial",
   "theorems": [
    "wal_append_after_torn_refuted",
    "wal_append_after_boundary_partial"
   ],
   "note": "False of the code: appending to a torn log hides every later operation. Proved when the cut is at a frame boundary."
  },
  {
   "property": "C04",
   "status": "partial",
   "theorems": [
    "restart_op_ids_fresh",
    "next_operation_id_refuted"
   ],
   "note": "Proved for the path used by PyIndex (initialize_recovery); RecoveryManager::next_operation_id violates it."
  },
  {
   "property": "C05",
   "status": "partial",
   "theorems": [
    "publish_crash_atomic",
    "publish_same_name_refuted"
   ],
   "note": "Proved for a snapshot name different from the current one and for process crashes (not power loss); false when two checkpoints share a millisecond timestamp."
  },
  {
   "property": "C06",
   "status": "partial",
   "theorems": [
    "recovery_history_partial",
    "recovery_history_refuted"
   ],
   "note": "Proved for histories in which no crash tears a log frame; false otherwise (operation acknowledged after a torn log is lost)."
  },
  {
   "property": "C07",
   "status": "proved",
   "theorems": [
    "manifest_round_trip",
    "current_round_trip",
    "manifest_unknown_keys_ignored",
    "manifest_without_id_rejected"
   ],
   "note": "For text fields without line breaks (see C08)."
  },
  {
   "property": "C08",
   "status": "partial",
   "theorems": [
    "manifest_injection_refuted",
    "manifest_no_injection_partial"
   ],
   "note": "False of the code: a line break in the checkpoint reason or in a file name overwrites other fields on load. Proved for values without line breaks."
  },
  {
   "property": "C09",
   "status": "proved",
   "theorems": [
    "scalar_data_round_trip",
    "serialized_size_exact"
   ],
   "note": "Field lengths and counts below 2^32."
  },
  {
   "property": "C10",
   "status": "partial",
   "theorems": [
    "scalar_data_decoders_in_bounds",
    "scalar_data_invalid_bool_refuted"
   ],
   "note": "No decoder reads out of bounds on any bytes; but a bool byte other than 0/1 is copied into a bool (undefined behaviour), so decoding is not total."
  },
  {
   "property": "C11",
   "status": "partial",
   "theorems": [
    "selected_metadata_agrees",
    "single_metadata_agrees_partial",
    "single_metadata_empty_name_refuted"
   ],
   "note": "The single-field decoder reports the field with the empty name as absent."
  },
  {
   "property": "C12",
   "status": "partial",
   "theorems": [
    "filter_evaluate_partial",
    "condition_evaluate",
    "filter_nan_refuted",
    "filter_not_many_refuted"
   ],
   "note": "Proved for values that are not NaN and NOT nodes with one part; false otherwise (both shown by witnesses)."
  },
  {
   "property": "C13",
   "status": "proved",
   "theorems": [
    "encode_int64_order"
   ],
   "note": ""
  },
  {
   "property": "C14",
   "status": "proved",
   "theorems": [
    "encode_double_order",
    "encode_double_zeros_differ"
   ],
   "note": "The two zeros are equal numbers with different keys; shown separately."
  },
  {
   "property": "C15",
   "status": "partial",
   "theorems": [
    "equality_lookup_partial",
    "equality_lookup_refuted"
   ],
   "note": "False of the code: a string value extended with '_' matches too, and field names containing '_' can collide. Proved: exactly the matching rows plus those extensions, for field names that are separated."
  },
  {
   "property": "C16",
   "status": "partial",
   "theorems": [
    "int_range_lookup_partial",
    "double_range_lookup_partial",
    "range_lookup_refuted"
   ],
   "note": "Integers exact for separated field names; doubles exact for number bounds except lower bound +0.0 / upper bound -0.0; false in the remaining cases."
  },
  {
   "property": "C17",
   "status": "partial",
   "theorems": [
    "matcher_exact_partial",
    "matcher_exact_refuted"
   ],
   "note": "Proved for every filter that does not take the index path, and for the index path with separated field names and operands/values outside the listed exceptions (infinities, NaN, zeros, extreme doubles, strings extended by '_'); the exceptions are genuine and refuted by witness."
  },
  {
   "property": "C18",
   "status": "proved",
   "theorems": [
    "item_ids_unique",
    "storage_refines_table"
   ],
   "note": "Histories of inserts, batch inserts, updates, removes, reopens and rows in the old key format."
  },
  {
   "property": "C19",
   "status": "partial",
   "theorems": [
    "secondary_index_exact",
    "secondary_index_one_entry_partial",
    "secondary_index_one_entry_refuted"
   ],
   "note": "The index holds exactly the keys of the live (field, row) pairs; two pairs of one row can share a key when field names contain '_'."
  },
  {
   "property": "C20",
   "status": "proved",
   "theorems": [
    "row_count_exact"
   ],
   "note": "Normal closes and reopens included; crashes not modelled."
  },
  {
   "property": "C21",
   "status": "proved",
   "theorems": [
    "row_keys",
    "other_keys_are_not_row_keys"
   ],
   "note": ""
  },
  {
   "property": "C22",
   "status": "proved",
   "theorems": [
    "scan_exact"
   ],
   "note": "limit 0 means no limit."
  },
  {
   "property": "C23",
   "status": "proved",
   "theorems": [
    "dynamic_bitset_is_a_set",
    "epoch_set_is_a_set",
    "sparse_bitset_is_a_set",
    "hierarchical_bitset_is_a_set",
    "visited_bitset_is_a_set"
   ],
   "note": "All four sets of query_utils.hpp and the disk search's VisitedBitset, for every size, every tag width and any number of clears; find-first returns the smallest member (the C++ int result is exact for sizes up to 2^31)."
  },
  {
   "property": "C24",
   "status": "partial",
   "theorems": [
    "hash_set_is_a_set_partial",
    "hash_set_constructor",
    "hash_set_refuted"
   ],
   "note": "Holds for every id but 0xFFFFFFFF, which marks empty slots and is reported present in an empty set (refuted)."
  },
  {
   "property": "C25",
   "status": "partial",
   "theorems": [
    "linear_pool_keeps_closest",
    "linear_pool_refuses_only_far",
    "search_buffer_keeps_closest_partial",
    "search_buffer_refuses_only_far_partial",
    "search_buffer_refuses_infinity_refuted",
    "search_buffer_cleared_partial",
    "laser_buffer_keeps_closest"
   ],
   "note": "Proved for LinearPool and the Laser buffer with every non-NaN distance; SearchBuffer<float> refuses a candidate at infinite distance even when empty (refuted), and is proved for finite distances. Ids below 2^31 (bit 31 is the mark)."
  },
  {
   "property": "C26",
   "status": "proved",
   "theorems": [
    "linear_pool_never_skips",
    "search_buffer_never_skips",
    "laser_buffer_never_skips",
    "frontier_never_skips"
   ],
   "note": "For LinearPool, SearchBuffer and the Laser buffer, every interleaving of insertions and pops, ids below 2^31."
  },
  {
   "property": "C27",
   "status": "proved",
   "theorems": [
    "frontier_holds_smallest",
    "frontier_order_independent",
    "frontier_ids_distinct",
    "frontier_eviction_reported"
   ],
   "note": "For every interleaving of insertions, expansions and resets in which an id always comes with the same distance (distinct ids are the special case). frontier_duplicate_id_refuted shows why that assumption is needed: the same id with two distances is kept twice."
  },
  {
   "property": "C28",
   "status": "partial",
   "theorems": [
    "vamana_search_ranked",
    "vamana_search_expands_once",
    "vamana_search_settled",
    "vamana_search_exact",
    "vamana_search_rejects",
    "solo_search_ranked",
    "solo_search_overlay",
    "solo_search_rejects",
    "disk_search_ranked",
    "disk_search_expands_once",
    "disk_search_settled",
    "disk_search_exact",
    "disk_search_same",
    "disk_search_textbook",
    "textbook_unique",
    "solo_search_ef_zero_refuted",
    "disk_search_deleted_medoid_refuted",
    "disk_search_scratch_refuted",
    "disk_search_refuted_completion_order"
   ],
   "note": "All three searches terminate, rank, expand once, settle and are exact when the list holds every reachable node. Refuted at the edges: ef = 0 with topk = 0 reads before the pool; on disk a deleted medoid takes a place in the list (disk_search_deleted_medoid_refuted) and a list above the scratch size throws (disk_search_scratch_refuted). The deterministic disk search refines the textbook search step by step; the pipelined one does not, and the order of completions decides its results without any ties (disk_search_refuted_completion_order). The product-quantized disk search is C84."
  },
  {
   "property": "C29",
   "status": "partial",
   "theorems": [
    "prune_terminates",
    "prune_result_valid",
    "prune_keeps_closest",
    "prune_drops_only_occluded",
    "prune_kept_not_occluded",
    "prune_infinite_alpha_refuted"
   ],
   "note": "Proved in exact binary32 arithmetic for finite alpha in [1, FLT_MAX), no NaN and distinct ids. prune_drops_only_occluded states the third reason the code has for dropping a candidate: maxc closer ones exist. Infinite alpha repeats ids (refuted)."
  },
  {
   "property": "C30",
   "status": "proved",
   "theorems": [
    "merge_shards_exact",
    "merged_graph_loads",
    "merge_repeated_id_refuted",
    "merge_truncated_refuted",
    "merged_gap_refuted"
   ],
   "note": "For all shard graphs with strictly ascending ids below 2^32-1, whatever std::shuffle does. Findings: an idmap with a repeated id passes the sortedness check and drops all later nodes of its shard; a graph file cut within the last list merges with an invented neighbour; an id in no shard gives a file the reader rejects."
  },
  {
   "property": "C31",
   "status": "proved",
   "theorems": [
    "rerank_exact"
   ],
   "note": "For every heap library that satisfies the C++ standard's contract (RankSpec.heap_lib_ok), every candidate list and every topk. NaN distances excluded (they break the strict weak order the standard requires)."
  },
  {
   "property": "C32",
   "status": "partial",
   "theorems": [
    "brute_force_exact_partial",
    "view_brute_force_exact_partial",
    "brute_force_infinite_refuted",
    "brute_force_deleted_refuted",
    "view_nan_zero_refuted"
   ],
   "note": "Exact k nearest accepted rows, with or without the metadata index and through the materialized view, under the index conditions of C17, finite distances and at most 2^31 ids. Refuted without them: rows at infinite distance are dropped, the empty filter returns deleted rows, and the view mishandles NaN and the two zeros."
  },
  {
   "property": "C33",
   "status": "partial",
   "theorems": [
    "raw_space_available_partial",
    "sq8_space_available_partial",
    "space_double_remove_refuted",
    "raw_space_full_insert_refuted"
   ],
   "note": "RawSpace: right for every history without refused insertions and double removals; SQ8Space: also with refused insertions. Removing a slot twice (both) and inserting into a full RawSpace make the count wrong (refuted)."
  },
  {
   "property": "C34",
   "status": "proved",
   "theorems": [
    "storage_is_table",
    "storage_slots_distinct"
   ],
   "note": "Every history of insert, reserve, update, remove and save/load, every capacity, item size and alignment, ids below the capacity. storage_bad_id_refuted: ids are not checked, so passing on the -1 of a refused insertion reads outside the bitmap."
  },
  {
   "property": "C35",
   "status": "proved",
   "theorems": [
    "tombstones_are_set",
    "tombstones_round_trip",
    "tombstone_set_beyond"
   ],
   "note": "Every history of set, clear and reset over 32-bit ids, every initial capacity; the snapshot agrees too. tombstone_damaged_file_refuted: a damaged word count makes deserialize dereference a null chunk."
  },
  {
   "property": "C36",
   "status": "partial",
   "theorems": [
    "slot_alloc_not_in_use",
    "slot_visibility",
    "slot_reuse",
    "slot_save_load",
    "slot_wraparound_refuted"
   ],
   "note": "Proved while the last 32-bit id has not been handed out; past that the next id wraps to 0 and a live slot is returned (slot_wraparound_refuted)."
  },
  {
   "property": "C37",
   "status": "partial",
   "theorems": [
    "build_labels",
    "labels_are_a_map_partial",
    "live_count_is_labels",
    "operations_answer",
    "live_count_refuted",
    "failed_insert_in_place_refuted",
    "batch_insert_silent_refuted"
   ],
   "note": "For every history of single and batch operations with reopenings, every schedule of the batch tasks and every I/O failure: labels and slots are a map, rejections are exact and change nothing; the live count is exact when no I/O fails. Refuted when a page write fails: the slot stays counted; an insert that raises late is in place; batch_insert swallows failures and returns id 0 for the missing row."
  },
  {
   "property": "C38",
   "status": "proved",
   "theorems": [
    "flush_load"
   ],
   "note": "For every reachable state; also vectors, live count and slot bound."
  },
  {
   "property": "C39",
   "status": "partial",
   "theorems": [
    "flush_crash_removals_partial",
    "flush_crash_refuted",
    "flush_crash_mixed_refuted"
   ],
   "note": "Rows before or after at every crash point if only removals happened since the last flush. Refuted otherwise: a crash between meta.bin and ids.bin after the index has grown leaves an unloadable directory; a crash before ids.bin after a slot was reused gives the old label the new vector."
  },
  {
   "property": "C40",
   "status": "partial",
   "theorems": [
    "search_pair_partial",
    "search_pair_refuted"
   ],
   "note": "Every interleaving of one search with update steps: the returned pair was stored at the snapshot if the slot is not handed out again before the label lookup. Refuted without that condition."
  },
  {
   "property": "C41",
   "status": "partial",
   "theorems": [
    "layout_disjoint",
    "layout_sectors",
    "layout_read_back",
    "layout_written_checked",
    "accepted_header_safe_partial",
    "accepted_header_refuted",
    "header_division_refuted"
   ],
   "note": "Disjoint, sector-aligned and read back exactly for every dimension, degree bound, node count and content whose sizes fit into 64 bits. Refuted beyond: a header whose file size wraps is accepted although records lie outside the file, and a record length that wraps to 0 is divided by."
  },
  {
   "property": "C42",
   "status": "proved",
   "theorems": [
    "cache_safe",
    "reads_latest",
    "reads_latest_uncached",
    "reads_answer",
    "no_error_no_throw",
    "cache_size",
    "flush_reaches_disk"
   ],
   "note": "Every interleaving of locked reads and writes, flushes and searches of all threads, every page size, capacity and outcome of the device accesses. Without a cache a failed write leaves the page in doubt (reads_latest_uncached)."
  },
  {
   "property": "C43",
   "status": "proved",
   "theorems": [
    "fill_latest",
    "cache_never_stale"
   ],
   "note": "Same histories; the unlocked device read may return anything if the page was written to the device meanwhile. Wrap-around of the 64-bit versions and read_neighbor_group_stride, which has no version check, are left out."
  },
  {
   "property": "C44",
   "status": "partial",
   "theorems": [
    "segment_round_trip",
    "segment_loaded_good",
    "segment_reload",
    "segment_round_trip_refuted"
   ],
   "note": "Round trip for every manifest whose texts fit on a line and that is at most 1 MiB long; every file content that loads gives plain file names, a well-formed id, positive counts. Refuted without the condition on the texts: save does not check them, a line break in an extension adds a field."
  },
  {
   "property": "C45",
   "status": "partial",
   "theorems": [
    "collection_round_trip",
    "collection_loaded_good",
    "collection_reload",
    "collection_distinct_refuted",
    "collection_size_refuted",
    "collection_long_id_refuted"
   ],
   "note": "Round trip and well-formed ids for every manifest and file content. Refuted: repeated ids load; a collection with 49933 segments or more is saved but can not be loaded (1 MiB limit), and so is one with a segment number from 10^8 on."
  },
  {
   "property": "C46",
   "status": "partial",
   "theorems": [
    "segment_id_partial",
    "segment_id_distinct_partial",
    "segment_id_refuted",
    "segment_id_distinct_refuted"
   ],
   "note": "Below 10^8. Refuted beyond: no id is well formed, and from 10^11 on the 16-byte buffer cuts the digits so that different numbers share an id."
  },
  {
   "property": "C47",
   "status": "partial",
   "theorems": [
    "collection_history",
    "collection_reopens",
    "collection_flushes",
    "vamana_reopen_refuted",
    "vamana_metric_refuted",
    "flush_after_failure_refuted",
    "collection_too_long",
    "collection_reopen_refuted"
   ],
   "note": "collection_history proves the safety half for every history of add, flush and open with arbitrary failures and crashes; collection_reopens and collection_flushes prove that opening and flushing keep working under stated conditions. The refutations show the conditions are needed: a Vamana seed above 32 bits or a metric other than L2 makes the collection unopenable, one failed read after publishing blocks flushing until reopened, and 49933 segments cannot be opened."
  },
  {
   "property": "C48",
   "status": "partial",
   "theorems": [
    "rejected_batch_refuted",
    "rejected_batch_blocks",
    "rejected_batch_partial"
   ],
   "note": "As stated the claim is false: rejected rows stay pending and every later flush is refused (rejected_batch_refuted, and in general rejected_batch_blocks). Proved: after opening the collection again valid rows can be added and flushed."
  },
  {
   "property": "C49",
   "status": "partial",
   "theorems": [
    "merge_exact",
    "best_determined",
    "search_flat_partial",
    "search_flat_same_partial",
    "search_flat_refuted"
   ],
   "note": "Merging exact per-segment answers gives the global k best for every distribution, NaN included (merge_exact). For flat segments the whole search is exact and independent of the distribution when no distance is NaN. Refuted with NaN: the heap of a flat segment never displaces a row whose distance is NaN, so one segment and two segments answer differently."
  },
  {
   "property": "C50",
   "status": "partial",
   "theorems": [
    "batch_exact",
    "batch_raises",
    "batch_ends",
    "diskann_raises_terminates",
    "diskann_raises_refuted",
    "diskann_twice_refuted"
   ],
   "note": "Every interleaving of the workers, with a relaxed flag: each query exactly once, same output as one thread, no deadlock, bounded length; when a search raises the collection raises one of those errors. Refuted for DiskANNIndex: an exception in a worker ends the process, and with 2^32 - 1 queries the 32-bit counter wraps and queries are searched again."
  },
  {
   "property": "C51",
   "status": "partial",
   "theorems": [
    "spin_excludes",
    "spin_available",
    "shared_excludes",
    "shared_excludes_asserts",
    "shared_excludes_partial",
    "shared_upgrade_refuted",
    "shared_degrade_refuted"
   ],
   "note": "Spin lock: proved. Shared lock: proved without upgrade/degrade, and with them in builds with assertions; in a release build only under the stated discipline, and refuted otherwise: two readers that upgrade both become exclusive holders, and a spurious failure of degrade_lock closes the lock for ever."
  },
  {
   "property": "C52",
   "status": "partial",
   "theorems": [
    "scheduler_exact_partial",
    "scheduler_progress",
    "scheduler_no_worker_refuted",
    "scheduler_await_refuted",
    "scheduler_late_refuted"
   ],
   "note": "Proved for all interleavings, any number of workers, slots and tasks, tasks that suspend and create tasks, any order of the loads. Refuted: no worker (nothing runs), co_await scheduler.schedule() (resumed by two workers at once), scheduling from another thread while the workers stop (task never runs)."
  },
  {
   "property": "C53",
   "status": "proved",
   "theorems": [
    "pool_once",
    "pool_wait",
    "pool_destroyed",
    "pool_no_hang",
    "pool_two_waiters_refuted",
    "pool_reset_refuted",
    "pool_no_thread_refuted"
   ],
   "note": "For all interleavings, condition variables with spurious and chosen wake-ups. The wait is for the tasks enqueued since the last reset, fewer than 2^32. Extra: no lost wake-up with one client; two concurrent waiters, a reset while tasks run and a pool without threads go wrong (refuted)."
  },
  {
   "property": "C54",
   "status": "partial",
   "theorems": [
    "gate_exclusive",
    "gate_fifo",
    "gate_no_lost_waiter_partial",
    "gate_rejected_refuted",
    "gate_add_refuted"
   ],
   "note": "Proved for all interleavings: no object has two holders, waiters are served in arrival order, and no waiter stays suspended beside a free object as long as the thread pool accepts the resumption and add() is not called while a coroutine waits. Refuted otherwise: a rejected resumption loses waiter and object; add() with a parked waiter does not wake it."
  },
  {
   "property": "C55",
   "status": "partial",
   "theorems": [
    "dict_filter_built",
    "dict_filter_partial",
    "dict_or_sibling_refuted",
    "dict_or_empty_refuted"
   ],
   "note": "Proved for every dictionary in which \"$or\" is the only key of its dictionary and its list is not empty, any nesting, no NaN. Refuted otherwise: keys next to \"$or\" become alternatives, and an empty \"$or\" accepts every row."
  },
  {
   "property": "C56",
   "status": "partial",
   "theorems": [
    "delete_by_filter_partial",
    "delete_by_filter_ends",
    "delete_by_filter_runs",
    "delete_by_filter_refuted",
    "delete_not_updatable_refuted"
   ],
   "note": "Proved for every reachable table, filter and batch size from 1 to 2^32-1 when the matching rows have item ids and the index supports removal; in general it ends exactly when fewer rows than the batch size are stuck. Refuted otherwise: rows without item id (or an index without removal) make the loop endless or the returned number wrong."
  },
  {
   "property": "C57",
   "status": "partial",
   "theorems": [
    "graph_file_round_trip_partial",
    "graph_file_loaded_valid",
    "graph_file_canonical",
    "graph_file_isolated_refuted"
   ],
   "note": "Round trip for every graph whose nodes all have neighbours; whatever loads is valid and is exactly what saving it would write. Refuted for graphs with an isolated node: saved, but rejected on load."
  },
  {
   "property": "C58",
   "status": "proved",
   "theorems": [
    "binary_io_round_trip",
    "binary_io_reads_in_bounds",
    "binary_io_truncated",
    "binary_io_failed_read_moves_offset_refuted"
   ],
   "note": "The extra refuted theorem is about the doc comment only."
  },
  {
   "property": "C59",
   "status": "partial",
   "theorems": [
    "validate_exact",
    "effort_valid_partial",
    "effort_enough",
    "view_effort_valid_partial",
    "floor_log2_exact",
    "ceil_log2_exact",
    "ceil_div_exact_partial",
    "round_up_exact_partial",
    "round_up_pow2_exact_partial",
    "is_power_of_two_exact",
    "effort_64_refuted",
    "effort_enough_one_refuted",
    "adjust_alone_refuted",
    "ceil_div_refuted"
   ],
   "note": "Proved for every table of fewer than 2^32 rows, every number of matches and all parameters the validation accepts, with IEEE double arithmetic. Refuted for larger tables (64-bit ids): the list size is cut to 32 bits and can end below k. The rounding helpers are exact unless the sum wraps past 2^64."
  },
  {
   "property": "C60",
   "status": "partial",
   "theorems": [
    "quantize_in_range_partial",
    "quantize_monotone",
    "quantize_ends",
    "quantize_accurate",
    "fit_exact",
    "encode8_correct",
    "encode4_correct",
    "quantize_width_refuted",
    "quantize_nan_refuted"
   ],
   "note": "Proved for all finite fitted ranges whose width does not overflow and all values that are not NaN. Refuted otherwise: an overflowing width or a NaN value leads to an undefined conversion."
  },
  {
   "property": "C61",
   "status": "proved",
   "theorems": [
    "insert_payload_round_trip",
    "remove_item_payload_round_trip",
    "remove_internal_payload_round_trip"
   ],
   "note": ""
  },
  {
   "property": "C62",
   "status": "partial",
   "theorems": [
    "sq8_l2_accurate",
    "sq8_ip_accurate",
    "sq4_ip_accurate_partial",
    "decoded_accurate",
    "sq4_l2_accurate_partial",
    "sq4_order_refuted",
    "sq4_last_dimension_refuted",
    "sq4_ip_refuted"
   ],
   "note": "Proved for 8-bit L2 and inner products (error bounds for all dimensions and ranges); for 4 bits only when neighbouring dimensions share a range and the dimension is even. Refuted in general: the 4-bit distance functions read the two codes of a byte in the opposite order to the encoder and skip the last dimension when it is odd."
  },
  {
   "property": "C63",
   "status": "partial",
   "theorems": [
    "narrow_ids_partial",
    "narrow_ids_recounted_partial",
    "wide_ids_refuted"
   ],
   "note": "Proved for 32-bit ids for every pool, k and array contents. Refuted for 64-bit ids: every search with at least one result leaves a wrong id array (two 32-bit ids packed per entry)."
  },
  {
   "property": "C64",
   "status": "partial",
   "theorems": [
    "filtered_search_right_partial",
    "filtered_search_full_partial",
    "filtered_search_iterative_partial",
    "unfiltered_search_found",
    "iterative_misses_refuted"
   ],
   "note": "Proved for every mode, graph, filter and effort decision when the metadata index can be trusted (index_safe), exact distances are finite and there are at most 2^31 ids. With the iterative hint the answer can come up short although rows match (refuted by witness). RaBitQ iterator not modelled."
  },
  {
   "property": "C65",
   "status": "partial",
   "theorems": [
    "search_after_updates",
    "removed_after_live",
    "removed_not_returned_refuted"
   ],
   "note": "Order, uniqueness and \"removed after live\" proved for every reachable state. \"Not returned at all\" refuted by witness: a removed vector is returned with distance FLT_MAX when fewer than k live vectors are reached."
  },
  {
   "property": "C66",
   "status": "partial",
   "theorems": [
    "updates_never_fail",
    "insert_answers",
    "insert_succeeds",
    "remove_answers",
    "insert_relinks",
    "insert_links_back",
    "failed_relinking_blocks_inserts",
    "inserted_found_refuted",
    "inserted_linked_refuted",
    "found_stays_found_refuted",
    "relinked_edges_refuted",
    "own_neighbour_refuted",
    "insert_succeeds_refuted"
   ],
   "note": "Memory safety, ids in step, answers and the relinking rule proved for every sequence of operations. Refuted by witnesses: the new vector is linked, is found, vectors found before stay found, rows hold only old or new neighbours, no row lists itself, and every insert with room succeeds."
  },
  {
   "property": "C67",
   "status": "partial",
   "theorems": [
    "nsg_build_valid",
    "nsg_search_sorted",
    "nsg_entry_best",
    "nsg_prune_distinct",
    "nsg_distinct_refuted",
    "nsg_growth_keeps_links_partial",
    "nsg_growth_links_nothing",
    "nsg_all_reachable_refuted",
    "nsg_small_collection_never_builds",
    "nsg_full_graph_never_returns",
    "nsg_degree_one_never_builds"
   ],
   "note": "Memory safety and valid rows proved for every input, and the last stage never removes a link. Refuted: the last stage attaches nothing when vector 0 is reachable (proved for all graphs), so unreachable vectors stay unreachable (witness); with fewer vectors than ef_construction, with one neighbour per vector, or when every row is full and a vector is unlinked, building never ends (proved for all such inputs); a finished row may list a neighbour twice (witness), though pruning never does. Searches return their results in order, and the entry point is the vector nearest to the centre among those found."
  },
  {
   "property": "C68",
   "status": "proved",
   "theorems": [
    "fusion_unites",
    "fusion_distinct",
    "fusion_keeps_reachable",
    "fusion_entry_points"
   ],
   "note": "For all pairs of edge tables of the given width. Neighbours are the ids before the first empty slot."
  },
  {
   "property": "C69",
   "status": "partial",
   "theorems": [
    "hnsw_build_ok",
    "hnsw_small_fully_linked",
    "hnsw_index_searchable",
    "hnsw_all_reachable_refuted",
    "hnsw_few_neighbours_undefined",
    "hnsw_no_vectors_undefined"
   ],
   "note": "Proved for R >= 4, every order of the insertions taken one at a time (interleavings of two insertions are not modelled). Refuted: reachability, with the default parameters, on the origin and 49 unit vectors; R = 2 or 3 and an empty collection are undefined for every input."
  },
  {
   "property": "C70",
   "status": "proved",
   "theorems": [
    "visited_lists_exact"
   ],
   "note": "For every interleaving of the steps of any number of searches."
  },
  {
   "property": "C71",
   "status": "partial",
   "theorems": [
    "client_refines_partial",
    "client_names_unique",
    "client_delete_stays_inside_refuted",
    "client_databases_apart_refuted",
    "client_saved_comes_back_refuted",
    "client_opens_refuted"
   ],
   "note": "Proved for names without slashes other than empty, \".\" and \"..\", and default database places; unique names for all names. Refuted otherwise: deleting the collection with an absolute or empty name or \"..\" removes other files; databases given side by side share their recovery directory; a name with a slash is saved but not found again; one bad schema.json keeps the client from opening."
  },
  {
   "property": "C72",
   "status": "partial",
   "theorems": [
    "fastscan_sums",
    "fastscan_same",
    "fastscan_table",
    "fastscan_estimate_partial",
    "fastscan_distance_partial",
    "fastscan_inner_partial",
    "fastscan_estimate_refuted",
    "fastscan_zero_query_undefined"
   ],
   "note": "Lookup sums modulo 2^16 and the tables proved for all inputs; estimates proved up to 1028 dimensions for nonzero queries, in exact arithmetic. Refuted beyond: with 1088 dimensions the 16-bit sum wraps; a zero query has no defined table."
  },
  {
   "property": "C73",
   "status": "partial",
   "theorems": [
    "laser_blocks",
    "laser_query_values",
    "laser_scan_partial",
    "laser_scan_refuted",
    "laser_wide_refuted"
   ],
   "note": "Blocks and query values proved for all; scans proved up to 512 dimensions if no group of four values adds up to more than 255. Refuted otherwise: four maxima together wrap to 0, and from 1024 dimensions sums of 2^15 and more turn negative."
  },
  {
   "property": "C74",
   "status": "proved",
   "theorems": [
    "pq_distance_exact",
    "pq_symmetric_exact",
    "pq_encode_best",
    "pq_encode_overflow_refuted",
    "pq_lossless",
    "pq_training_improves"
   ],
   "note": "In exact arithmetic; float rounding is not bounded. Optimal codes need one codeword per chunk nearer than the largest float (otherwise codeword 0 is taken, shown by a counterexample)."
  },
  {
   "property": "C75",
   "status": "proved",
   "theorems": [
    "pq_batch_same",
    "pq_distance_unchecked",
    "pq_symmetric_checks",
    "pq_train_any_order",
    "pq_train_checks",
    "pq_encode_any_order",
    "pq_encode_one",
    "pq_save_load",
    "pq_load_checks"
   ],
   "note": "For any arithmetic, so also for rounded floats. Points past the end are not checked by pq_distance (reads outside the array)."
  },
  {
   "property": "C76",
   "status": "proved",
   "theorems": [
    "vbuild_linking_safe",
    "vbuild_linking_ends",
    "vbuild_cleanup_safe",
    "vbuild_well_formed",
    "vbuild_finishes"
   ],
   "note": "For every interleaving of the accesses to neighbour lists (each under its node's mutex); node numbers are not wrapped to 32 bits."
  },
  {
   "property": "C77",
   "status": "partial",
   "theorems": [
    "vbuild_reachable_partial",
    "vbuild_reachable_refuted_equal_vectors",
    "vbuild_reachable_refuted_distinct_vectors",
    "vbuild_reachable_refuted_race"
   ],
   "note": "Proved for at most R + 1 vectors, not more than L, maxc + 1 or 2048 of them, for all data, threads and interleavings. False otherwise: with 66 equal vectors and the defaults; with seven distinct vectors and R = 4; and, whatever R and L, with 2049 vectors and two threads, where a store overwrites a link back."
  },
  {
   "property": "C78",
   "status": "partial",
   "theorems": [
    "entry_point_nearest",
    "entry_point_in_range",
    "entry_point_first_small",
    "entry_point_unique",
    "entry_point_deterministic_refuted"
   ],
   "note": "Always a nearest vector; the same for the same data up to 65536 vectors or without ties. With ties between blocks it depends on which thread reports first."
  },
  {
   "property": "C79",
   "status": "partial",
   "theorems": [
    "shard_assignment_exact",
    "nearest_centres_unique",
    "shard_replication",
    "shard_assignment_safe",
    "shard_input_complete",
    "shard_replication_refuted_infinite",
    "shard_nearest_refuted_nan",
    "shard_zero_block_refuted"
   ],
   "note": "Proved when all distances are numbers and k of them below FLT_MAX. False when distances overflow (the vector is written twice to shard 0 and the check of the total passes) or are NaN; a block size of 0 runs for ever."
  },
  {
   "property": "C80",
   "status": "partial",
   "theorems": [
    "partitioned_build_exact",
    "partitioned_build_refuted_empty_shard",
    "medoid_streaming_nearest",
    "medoid_streaming_in_range"
   ],
   "note": "Proved when every shard gets a vector. If one gets none, load_fbin refuses its file and the whole build throws."
  },
  {
   "property": "C81",
   "status": "proved",
   "theorems": [
    "num_parts_least"
   ],
   "note": "For estimates and a budget that are numbers; the estimates themselves (k-means, sampling, the RAM formula) are parameters."
  },
  {
   "property": "C82",
   "status": "partial",
   "theorems": [
    "kmeanspp_spread",
    "kmeanspp_distinct",
    "kmeanspp_refuted_not_finite"
   ],
   "note": "Proved for finite distances and any rounding of the double sums. False when a point's distances overflow or are NaN: with three or more centres the re-draw loop never ends. IEEE comparisons are assumed, which -Ofast does not promise."
  },
  {
   "property": "C83",
   "status": "partial",
   "theorems": [
    "lloyd_residual_descends",
    "lloyd_centres",
    "run_lloyds_exact",
    "kmeans_train_improves",
    "cluster_sizes_exact",
    "kmeans_refuted_equal_vectors"
   ],
   "note": "Proved in exact arithmetic. Fitness for a partitioned build is false: empty clusters become zero vectors, and a sample of equal vectors always ends in a shard without vectors, so that the build throws."
  },
  {
   "property": "C84",
   "status": "partial",
   "theorems": [
    "pq_search_ranked",
    "pq_search_reads_once",
    "pq_search_two_stages",
    "pq_search_exact",
    "pq_search_same",
    "pq_search_refuted_rerank_count",
    "pq_search_refuted_wide_beam",
    "pq_search_refuted_completion_order",
    "pq_search_refuted_deterministic"
   ],
   "note": "Termination, true distances, order, single processing, rerank without reads and exactness are proved for every order of completions. Refuted: a rerank_count below top_k returns fewer; a beam wider than the page slots makes asynchronous searches throw; the order of completions decides results without any ties; deterministic searches depend on the page cache."
  },
  {
   "property": "C85",
   "status": "partial",
   "theorems": [
    "coro_search_textbook",
    "coro_search_ranked",
    "coro_search_same",
    "coro_pq_ranked",
    "coro_pq_reads_once",
    "coro_pq_two_stages",
    "coro_pq_same",
    "coro_pq_rerank_throws",
    "coro_pq_refuted_page_slots"
   ],
   "note": "Without quantization proved in full, for caches of any content (the code promises it only for empty ones). With quantization everything is proved but the equality with the deterministic search, which holds when the beam is no wider than the page slots (coro_pq_same) and is refuted for wider beams (coro_pq_refuted_page_slots). The reactor and the suspension of coroutines are not modelled: a wave is one step."
  },
  {
   "property": "C86",
   "status": "partial",
   "theorems": [
    "node_cache_closest",
    "node_cache_refines",
    "node_cache_matches_disk",
    "node_cache_load_checked",
    "node_cache_refuted_zero_length"
   ],
   "note": "Everything is proved for every history whose node ids stay below a limit for which the file sizes fit into 64 bits. For damaged files the bounds are proved when the node length in cache_nodes.bin is not 0; a length of 0 is accepted and a lookup then reads outside the cache (node_cache_refuted_zero_length). An operation is one step; the locks of the shards are not modelled."
  },
  {
   "property": "C87",
   "status": "partial",
   "theorems": [
    "search_reads_latest_partial",
    "search_reads_refuted_flush_pages"
   ],
   "note": "Proved for every history in which the index is only closed when no update came after the last flush. What is missing is refuted: after flush_pages and reopening, searches see the old record of a cached node although the disk has the new one. The page cache is represented by C42's theorem that reads return the latest write; relinking nodes that were never written is left out."
  },
  {
   "property": "C88",
   "status": "partial",
   "theorems": [
    "fht_is_walsh_hadamard",
    "rabitq_rotation_isometry",
    "rabitq_rotator_accepts",
    "rabitq_rotation_refuted_small_padding",
    "laser_rotation_isometry",
    "laser_rotator_accepts"
   ],
   "note": "In real numbers: rounding is left out, and so are the AVX kernels and the matrix rotator. The transform is proved for every size, the isometry for all accepted dimensions and all paddings not below the dimension; a smaller padding is accepted by choose_rotator and refuted."
  },
  {
   "property": "C89",
   "status": "partial",
   "theorems": [
    "qg_regular",
    "qg_builds",
    "qg_refuted_few_vectors",
    "qg_prune_diverse"
   ],
   "note": "Regularity, true distances and memory safety are proved for every number of vectors, estimate, random number and interleaving; termination is proved with more vectors than the degree bound and fair random numbers, and refuted (for all random numbers) with as many or fewer. Not modelled: the choice of the entry point (any vertex), the codes, NaN distances, and the unlocked read of the end of a row, taken as one atomic step."
  },
  {
   "property": "C90",
   "status": "proved",
   "theorems": [
    "uring_no_dangling",
    "uring_batch_result",
    "uring_ended_quiet",
    "uring_throws_only_refused",
    "uring_batches_end"
   ],
   "note": "Any number of batches, any interleaving of the steps of submitters, reapers and waiters, any kernel answers. Not modelled: memory orderings (steps are atomic), the destructor and in_flight_ (read only there), scheduling on the pool, the bytes read."
  },
  {
   "property": "C91",
   "status": "partial",
   "theorems": [
    "items_in_step",
    "get_exact",
    "insert_puts",
    "insert_new_succeeds",
    "delete_removes",
    "upsert_puts",
    "upsert_atomic_partial",
    "upsert_refuted_full",
    "upsert_refuted_narrow",
    "insert_refuted_full",
    "reindex_keeps",
    "reindex_refuted_unnamed"
   ],
   "note": "Composes the graph updates of C66 with the scalar storage of C18. The atomicity of upserts is proved with two free slots, ef at least the degree, a rollback that RocksDB accepts and no removed node without recorded neighbours; it is refuted for a full index (the item is deleted and -1 returned) and for ef below the degree (the item is deleted and an exception raised). A new item is dropped without an exception by a full index. Rebuilding drops rows without an item id. Not modelled: the write-ahead log (C06, C61), normalization."
  },
  {
   "property": "C92",
   "status": "partial",
   "theorems": [
    "laser_search_right",
    "laser_search_ends",
    "laser_exhaustive_partial",
    "laser_follows_partial",
    "best_medoid_closest",
    "laser_width0_refuted",
    "laser_exhaustive_refuted",
    "laser_order_refuted",
    "laser_failed_read_refuted",
    "laser_fill_refuted"
   ],
   "note": "Slots, termination, own records, true distances and the choice of candidates are proved for all orders and timings of successful reads. Exhaustiveness is proved for beams of width 1; for wider beams all neighbours are followed but those of at most half a beam of last nodes (laser_follows_partial), and exhaustiveness is refuted. Refuted as well: the answer does not depend on timing; failed reads are noticed (the result of a read is ignored); a beam of width 0 ends; places without a result are told apart (they are filled with id 0). Not modelled: waiting for a workspace, PCA, the estimates (FastscanModel.v), the hash set of visited nodes (VisitedModel.v), refused io_submits."
  },
  {
   "property": "C93",
   "status": "partial",
   "theorems": [
    "laser_import_whole",
    "laser_import_returns",
    "laser_import_checks",
    "laser_import_opens_partial",
    "laser_open_sound",
    "laser_params_in_force",
    "laser_params_calls",
    "laser_segment_answers",
    "laser_import_opens_refuted",
    "laser_power_loss_refuted",
    "laser_stale_params_refuted",
    "laser_thrown_search_refuted"
   ],
   "note": "Atomicity is proved for every failing or crashing step, soundness for every directory that opens, parameters for all sequences of successful searches, and the hits are the labels of the answer of C92. Opening after importing is proved for degrees above zero, fewer than 2^32 points and non-empty optional files; for each of the others the import returns and the segment never opens (laser_import_opens_refuted). Refuted as well: opening after a loss of power (the copied files are not synced), parameters after a failed set_params (later searches wait for ever) and after a search that throws. Not modelled: the loading of the native index, the text of the float (printing and std::stof), symbolic links."
  },
  {
   "property": "C94",
   "status": "partial",
   "theorems": [
    "fit_pca_resumes_partial",
    "fit_pca_short_partial",
    "fit_pca_readable",
    "fit_pca_killed_untrusted",
    "fit_pca_seed_refuted",
    "fit_pca_vectors_refuted",
    "fit_pca_fewer_refuted"
   ],
   "note": "Proved for any number of earlier calls with the same vectors and seed, each killed at any byte or run to its end, and, whatever is found, for base files shorter than one chunk (100000 vectors by default). A killed call for another seed leaves no sidecar, so nothing is trusted afterwards. Refuted for another seed (the rebuild keeps every whole chunk transformed with the old PCA beside the new parameters), for other vectors of the same shape with the same seed (everything is kept) and for fewer vectors (the base file keeps the header and rows of the earlier ones, even without skip_existing). Only the PCA step and the sidecar are modelled: the vectors come from a file, and the branch without PCA, the medoids, Vamana and the LASER index are not modelled; fitting and transforming are an arbitrary function of seed and vectors, row by row."
  }
 ]
}