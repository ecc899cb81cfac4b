# Formal model of AlayaLite: design

The model is written in Rocq/Coq 8.16.1 and lives in `rocq/theories`.  The code
in `/repo` is read as text; nothing of it is built or executed.  A theorem is
therefore a statement about the model; the link to the code is the file/line
citation carried by every model definition.

## File structure

Each component `X` has up to four files:

* `XModel.v` – executable Gallina definitions, each citing the C++/Python it models;
* `XSpec.v`  – the independent specification (plain English first), no use of model helpers beyond the data types;
* `XProofs.v` – lemmas (also `StorageQueryProofs`, `FrontierProofs`, `DiskCollLive`, `FloatLemmas`);
* `XProps.v` – the property theorems, a concrete `Example` beside each, `Print Assumptions`.

`Bytes`, `Text`, `Kv`, `Arr`, `Threads`, `Double` hold shared definitions and lemmas.

Conventions: bytes are `N` below 256, byte strings are `list N`; machine integers
are `N` or `Z` with the wrap written out where the code can wrap; loops are
structural recursion or folds, and loops without an evident bound take fuel with
`OutOfFuel` as a distinct outcome, which the theorems exclude; C++ undefined
behaviour (out-of-bounds access, a bool byte that is neither 0 nor 1, an
out-of-range conversion) is a distinct outcome, never totalised away; throwing is
a distinct outcome from returning.  Concurrent components are transition systems:
a step is one access to shared state, a schedule is a list saying who moves next,
and properties are invariants over all schedules.

Theorems ending in `_refuted` exhibit a witness on which the code, as modelled,
violates the property.  Theorems ending in `_partial` prove the property under
an additional condition, named in the theorem's comment and in the note below.

## Trusted base

* The kernel of Coq 8.16.1 (including `vm_compute`, used for examples and for
  the witnesses of `_refuted` theorems).
* The axioms of the standard library listed at the end of this file.  They are
  those of the classical real numbers, reached through Flocq's theorems on
  binary floating point, and only for the properties about scalar quantization
  (C60), quantized distances (C62), effort parameters (C59) and filtered graph
  search (C64).  Everything else is closed under the global context.  No axiom
  is declared in this development and none of Flocq's or any other library's
  own is used.  (vcheck also counts axioms of the ssreflect support library that
  are loaded with Flocq and that no theorem uses.)
* The reading of the code: that each definition says what the cited lines do.
  The mutation log (`seeded/LOG.jsonl`) tests the theorems, not this reading.
* Environment assumptions: RocksDB is an ordered map with atomic write batches;
  the file system does what the model says per call (contents once written
  survive, except where a torn write is modelled); the heap, sort, shuffle and
  unordered containers of the C++ library satisfy the standard's contract, in
  any order it allows; memory allocation succeeds; release builds (asserts not
  evaluated); little-endian machine; `size_t` has 64 bits; floating-point
  arithmetic is IEEE round-to-nearest although release builds pass `-Ofast`.
  Distances are integers ordered like the floats in the search, pool and ranking
  components (NaN excluded unless the component models it), exact binary32 in
  the pruning, quantization, distance and effort components.


## Per property: model, method, result

Status as in MANIFEST.json; "partial" always comes with the reason.

### C01 WAL replay returns exactly the committed operations

Model: byte-exact WAL frames and the replay scan.  Method: induction over the frame list; round trip of the little-endian codec.

Status: proved.  Theorems (WalProps.v): `wal_replay_exact`, `wal_durable_iff`.  Ids below 2^64; calls that throw (payload above 2^30 bytes) are excluded because they write nothing.

### C02 WAL crash safety: any torn tail loses at most the torn frame

Model: same, on arbitrary prefixes of the byte string.  Method: prefix lemma for the scan.

Status: proved.  Theorems (WalProps.v): `wal_torn_tail`.  Any byte prefix of any log; the result is that of the longest whole number of frames.

### C03 Operations committed after recovering from a torn log survive the next recovery

Model: append to a torn file.  Method: refuted by witness; partial: holds when the file ends at a frame boundary.

Status: partial.  Theorems (WalProps.v): `wal_append_after_torn_refuted`, `wal_append_after_boundary_partial`.  False of the code: appending to a torn log hides every later operation. Proved when the cut is at a frame boundary.

### C04 Operation ids never repeat across restarts

Model: `next_operation_id` on manifest + log.  Method: refuted by witness; partial: non-empty log with larger ids.

Status: partial.  Theorems (RecoveryProps.v): `restart_op_ids_fresh`, `next_operation_id_refuted`.  Proved for the path used by PyIndex (initialize_recovery); RecoveryManager::next_operation_id violates it.

### C05 Publishing a snapshot is atomic with respect to crashes

Model: directory state as a record, publish as a list of atomic file-system steps.  Method: case analysis over every prefix of the step list.

Status: partial.  Theorems (RecoveryProps.v): `publish_crash_atomic`, `publish_same_name_refuted`.  Proved for a snapshot name different from the current one and for process crashes (not power loss); false when two checkpoints share a millisecond timestamp.

### C06 Committed operations survive any crash; uncommitted ones do not resurrect

Model: index as abstract key/value state, log, snapshot; history with crashes.  Method: invariant by induction over histories.

Status: partial.  Theorems (RecoveryProps.v): `recovery_history_partial`, `recovery_history_refuted`.  Proved for histories in which no crash tears a log frame; false otherwise (operation acknowledged after a torn log is lost).

### C07 Snapshot manifest round trip

Model: manifest text writer/parser, decimal printing.  Method: round-trip lemma, line splitting lemma.

Status: proved.  Theorems (SnapshotManifestProps.v): `manifest_round_trip`, `current_round_trip`, `manifest_unknown_keys_ignored`, `manifest_without_id_rejected`.  For text fields without line breaks (see C08).

### C08 Snapshot manifest fields cannot be injected

Model: field injection.  Method: refuted by witness, partial under C07's condition.

Status: partial.  Theorems (SnapshotManifestProps.v): `manifest_injection_refuted`, `manifest_no_injection_partial`.  False of the code: a line break in the checkpoint reason or in a file name overwrites other fields on load. Proved for values without line breaks.

### C09 Scalar data round trip

Model: byte-exact record codec.  Method: round trip.

Status: proved.  Theorems (ScalarDataProps.v): `scalar_data_round_trip`, `serialized_size_exact`.  Field lengths and counts below 2^32.

### C10 Scalar data decoding never reads outside the buffer

Model: decoders over a checked-read primitive where an out-of-range read is a distinct outcome.  Method: exhaustive case analysis/induction.

Status: partial.  Theorems (ScalarDataProps.v): `scalar_data_decoders_in_bounds`, `scalar_data_invalid_bool_refuted`.  No decoder reads out of bounds on any bytes; but a bool byte other than 0/1 is copied into a bool (undefined behaviour), so decoding is not total.

### C11 Partial metadata decoding agrees with full decoding

Model: selective decoders.  Method: induction over the metadata list.

Status: partial.  Theorems (ScalarDataProps.v): `selected_metadata_agrees`, `single_metadata_agrees_partial`, `single_metadata_empty_name_refuted`.  The single-field decoder reports the field with the empty name as absent.

### C12 Filter evaluation means what the filter says

Model: filter AST and evaluator.  Method: refinement to a denotational spec; NaN and NOT findings refuted.

Status: partial.  Theorems (FilterProps.v): `filter_evaluate_partial`, `condition_evaluate`, `filter_nan_refuted`, `filter_not_many_refuted`.  Proved for values that are not NaN and NOT nodes with one part; false otherwise (both shown by witnesses).

### C13 Integer index keys preserve order

Model: hex encoding.  Method: arithmetic, lexicographic order on fixed-length digit strings.

Status: proved.  Theorems (IndexEncodingProps.v): `encode_int64_order`.  

### C14 Floating-point index keys preserve order

Model: as C13 on IEEE bit patterns, order specified by exact integer scaling.  Method: arithmetic.

Status: proved.  Theorems (IndexEncodingProps.v): `encode_double_order`, `encode_double_zeros_differ`.  The two zeros are equal numbers with different keys; shown separately.

### C15 Equality lookups through the metadata index return exactly the matching rows

Model: sorted key/value store, prefix scan, field-index keys.  Method: refuted by separator collision; partial under a no-separator condition.

Status: partial.  Theorems (StorageProps.v): `equality_lookup_partial`, `equality_lookup_refuted`.  False of the code: a string value extended with '_' matches too, and field names containing '_' can collide. Proved: exactly the matching rows plus those extensions, for field names that are separated.

### C16 Range lookups through the metadata index return exactly the matching rows

Model: range scan.  Method: partial/proved under the no-separator condition.

Status: partial.  Theorems (StorageProps.v): `int_range_lookup_partial`, `double_range_lookup_partial`, `range_lookup_refuted`.  Integers exact for separated field names; doubles exact for number bounds except lower bound +0.0 / upper bound -0.0; false in the remaining cases.

### C17 Index-accelerated filtering equals direct evaluation

Model: indexed fast path vs evaluator.  Method: refuted on infinities/signed zero; partial otherwise.

Status: partial.  Theorems (MatcherProps.v): `matcher_exact_partial`, `matcher_exact_refuted`.  Proved for every filter that does not take the index path, and for the index path with separated field names and operands/values outside the listed exceptions (infinities, NaN, zeros, extreme doubles, strings extended by '_'); the exceptions are genuine and refuted by witness.

### C18 Item ids identify at most one row

Model: the storage as a sorted map of byte keys with every mutating operation, batch by batch.  Method: refinement to a table of rows, by induction over histories.

Status: proved.  Theorems (StorageProps.v): `item_ids_unique`, `storage_refines_table`.  Histories of inserts, batch inserts, updates, removes, reopens and rows in the old key format.

### C19 The secondary index tracks the rows

Model: the storage as a sorted map of byte keys with every mutating operation, batch by batch.  Method: refinement to a table of rows, by induction over histories.

Status: partial.  Theorems (StorageProps.v): `secondary_index_exact`, `secondary_index_one_entry_partial`, `secondary_index_one_entry_refuted`.  The index holds exactly the keys of the live (field, row) pairs; two pairs of one row can share a key when field names contain '_'.

### C20 The row count equals the number of live rows

Model: the storage as a sorted map of byte keys with every mutating operation, batch by batch.  Method: refinement to a table of rows, by induction over histories.

Status: proved.  Theorems (StorageProps.v): `row_count_exact`.  Normal closes and reopens included; crashes not modelled.

### C21 Row keys sort numerically and parse back

Model: decimal keys.  Method: arithmetic on digit strings.

Status: proved.  Theorems (StorageProps.v): `row_keys`, `other_keys_are_not_row_keys`.  

### C22 Filtered scans return the first matching rows

Model: scan.  Method: refinement.

Status: proved.  Theorems (StorageProps.v): `scan_exact`.  limit 0 means no limit.

### C23 Bit sets behave as sets

Model: bit-level models of the sets.  Method: refinement to finite sets.

Status: proved.  Theorems (BitsetProps.v): `dynamic_bitset_is_a_set`, `epoch_set_is_a_set`, `sparse_bitset_is_a_set`, `hierarchical_bitset_is_a_set`, `visited_bitset_is_a_set`.  All four sets of query_utils.hpp and the disk search's VisitedBitset, for every size, every tag width and any number of clears; find-first returns the smallest member (the C++ int result is exact for sizes up to 2^31).

### C24 The open-addressing visited set behaves as a set

Model: hash set with overflow.  Method: refinement; sentinel id refuted.

Status: partial.  Theorems (BitsetProps.v): `hash_set_is_a_set_partial`, `hash_set_constructor`, `hash_set_refuted`.  Holds for every id but 0xFFFFFFFF, which marks empty slots and is reported present in an empty set (refuted).

### C25 The candidate pool keeps the closest candidates

Model: array pool with binary search and cursor.  Method: invariant over histories.

Status: partial.  Theorems (PoolProps.v): `linear_pool_keeps_closest`, `linear_pool_refuses_only_far`, `search_buffer_keeps_closest_partial`, `search_buffer_refuses_only_far_partial`, `search_buffer_refuses_infinity_refuted`, `search_buffer_cleared_partial`, `laser_buffer_keeps_closest`.  Proved for LinearPool and the Laser buffer with every non-NaN distance; SearchBuffer<float> refuses a candidate at infinite distance even when empty (refuted), and is proved for finite distances. Ids below 2^31 (bit 31 is the mark).

### C26 The candidate pool never skips an unexplored candidate

Model: array pool with binary search and cursor.  Method: invariant over histories.

Status: proved.  Theorems (NpqProps.v, PoolProps.v): `linear_pool_never_skips`, `search_buffer_never_skips`, `laser_buffer_never_skips`, `frontier_never_skips`.  For LinearPool, SearchBuffer and the Laser buffer, every interleaving of insertions and pops, ids below 2^31.

### C27 Search frontier contents do not depend on insertion order

Model: priority queue with dedup.  Method: order independence via canonical sorted form.

Status: proved.  Theorems (NpqProps.v): `frontier_holds_smallest`, `frontier_order_independent`, `frontier_ids_distinct`, `frontier_eviction_reported`.  For every interleaving of insertions, expansions and resets in which an id always comes with the same distance (distinct ids are the special case). frontier_duplicate_id_refuted shows why that assumption is needed: the same id with two distances is kept twice.

### C28 Greedy graph search terminates and returns a sound ranked result

Model: the in-memory search loops (solo, overlay, replicated start) and the disk search (beam, frontier, record reads) on an arbitrary graph.  Method: a measure for termination; invariants tying the pool to the visited set; reachability and local optimality of the result.

Status: partial.  Theorems (DiskSearchProps.v, SearchProps.v): `vamana_search_ranked`, `vamana_search_expands_once`, `vamana_search_settled`, `vamana_search_exact`, `vamana_search_rejects`, `solo_search_ranked`, `solo_search_overlay`, `solo_search_rejects`, `disk_search_ranked`, `disk_search_expands_once`, `disk_search_settled`, `disk_search_exact`, `disk_search_same`, `disk_search_textbook`, `textbook_unique`, `solo_search_ef_zero_refuted`, `disk_search_deleted_medoid_refuted`, `disk_search_scratch_refuted`, `disk_search_refuted_completion_order`.  All three searches terminate, rank, expand once, settle and are exact when the list holds every reachable node. Refuted at the edges: ef = 0 with topk = 0 reads before the pool; on disk a deleted medoid takes a place in the list (disk_search_deleted_medoid_refuted) and a list above the scratch size throws (disk_search_scratch_refuted). The deterministic disk search refines the textbook search step by step; the pipelined one does not, and the order of completions decides its results without any ties (disk_search_refuted_completion_order). The product-quantized disk search is C84.

### C29 Neighbor pruning yields a valid adjacency list

Model: alpha sweep.  Method: invariants of the double loop.

Status: partial.  Theorems (PruneProps.v): `prune_terminates`, `prune_result_valid`, `prune_keeps_closest`, `prune_drops_only_occluded`, `prune_kept_not_occluded`, `prune_infinite_alpha_refuted`.  Proved in exact binary32 arithmetic for finite alpha in [1, FLT_MAX), no NaN and distinct ids. prune_drops_only_occluded states the third reason the code has for dropping a candidate: maxc closer ones exist. Infinite alpha repeats ids (refuted).

### C30 Merging shard graphs preserves adjacency

Model: merge loop.  Method: induction.

Status: proved.  Theorems (GraphFileProps.v): `merge_shards_exact`, `merged_graph_loads`, `merge_repeated_id_refuted`, `merge_truncated_refuted`, `merged_gap_refuted`.  For all shard graphs with strictly ascending ids below 2^32-1, whatever std::shuffle does. Findings: an idmap with a repeated id passes the sortedness check and drops all later nodes of its shard; a graph file cut within the last list merges with an invented neighbour; an id in no shard gives a file the reader rejects.

### C31 Reranking returns the exact nearest candidates

Model: the bounded heap loops with the standard library algorithms abstract under their contract.  Method: loop invariant "heap holds the best k so far".

Status: proved.  Theorems (RankProps.v): `rerank_exact`.  For every heap library that satisfies the C++ standard's contract (RankSpec.heap_lib_ok), every candidate list and every topk. NaN distances excluded (they break the strict weak order the standard requires).

### C32 Brute-force filtered search is exact

Model: the bounded heap loops with the standard library algorithms abstract under their contract.  Method: loop invariant "heap holds the best k so far".

Status: partial.  Theorems (RankProps.v): `brute_force_exact_partial`, `view_brute_force_exact_partial`, `brute_force_infinite_refuted`, `brute_force_deleted_refuted`, `view_nan_zero_refuted`.  Exact k nearest accepted rows, with or without the metadata index and through the materialized view, under the index conditions of C17, finite distances and at most 2^31 ids. Refuted without them: rows at infinite distance are dropped, the empty filter returns deleted rows, and the view mishandles NaN and the two zeros.

### C33 The reported number of available vectors is right

Model: counters and slots.  Method: refuted + partial; invariants.

Status: partial.  Theorems (StoreProps.v): `raw_space_available_partial`, `sq8_space_available_partial`, `space_double_remove_refuted`, `raw_space_full_insert_refuted`.  RawSpace: right for every history without refused insertions and double removals; SQ8Space: also with refused insertions. Removing a slot twice (both) and inserting into a full RawSpace make the count wrong (refuted).

### C34 Vector storage slots are never shared

Model: counters and slots.  Method: refuted + partial; invariants.

Status: proved.  Theorems (StoreProps.v): `storage_is_table`, `storage_slots_distinct`.  Every history of insert, reserve, update, remove and save/load, every capacity, item size and alignment, ids below the capacity. storage_bad_id_refuted: ids are not checked, so passing on the -1 of a refused insertion reads outside the bitmap.

### C35 Tombstone bitmap behaves as a set of ids and survives a save/load

Model: chunked bitmap / allocator.  Method: refinement.

Status: proved.  Theorems (TombProps.v): `tombstones_are_set`, `tombstones_round_trip`, `tombstone_set_beyond`.  Every history of set, clear and reset over 32-bit ids, every initial capacity; the snapshot agrees too. tombstone_damaged_file_refuted: a damaged word count makes deserialize dereference a null chunk.

### C36 Slot allocation never hands out a live slot

Model: chunked bitmap / allocator.  Method: refinement.

Status: partial.  Theorems (TombProps.v): `slot_alloc_not_in_use`, `slot_visibility`, `slot_reuse`, `slot_save_load`, `slot_wraparound_refuted`.  Proved while the last 32-bit id has not been handed out; past that the next id wraps to 0 and a live slot is returned (slot_wraparound_refuted).

### C37 Updatable disk index: labels behave as a map

Model: slot table + label map.  Method: invariant over histories.

Status: partial.  Theorems (IndexProps.v): `build_labels`, `labels_are_a_map_partial`, `live_count_is_labels`, `operations_answer`, `live_count_refuted`, `failed_insert_in_place_refuted`, `batch_insert_silent_refuted`.  For every history of single and batch operations with reopenings, every schedule of the batch tasks and every I/O failure: labels and slots are a map, rejections are exact and change nothing; the live count is exact when no I/O fails. Refuted when a page write fails: the slot stays counted; an insert that raises late is in place; batch_insert swallows failures and returns id 0 for the missing row.

### C38 Updatable disk index: flush then load restores the index

Model: file images.  Method: round trip; crash refuted by witness.

Status: proved.  Theorems (IndexProps.v): `flush_load`.  For every reachable state; also vectors, live count and slot bound.

### C39 Updatable disk index: a crash during flush leaves a loadable index

Model: file images.  Method: round trip; crash refuted by witness.

Status: partial.  Theorems (IndexProps.v): `flush_crash_removals_partial`, `flush_crash_refuted`, `flush_crash_mixed_refuted`.  Rows before or after at every crash point if only removals happened since the last flush. Refuted otherwise: a crash between meta.bin and ids.bin after the index has grown leaves an unloadable directory; a crash before ids.bin after a slot was reused gives the old label the new vector.

### C40 Concurrent search never pairs a label with another vector's distance

Model: interleaving of a search with updates.  Method: refuted by witness; partial without slot reuse.

Status: partial.  Theorems (IndexProps.v): `search_pair_partial`, `search_pair_refuted`.  Every interleaving of one search with update steps: the returned pair was stored at the snapshot if the slot is not handed out again before the label lookup. Refuted without that condition.

### C41 Disk node records never overlap and read back what was written

Model: geometry arithmetic and record codec.  Method: arithmetic + round trip.

Status: partial.  Theorems (LayoutProps.v): `layout_disjoint`, `layout_sectors`, `layout_read_back`, `layout_written_checked`, `accepted_header_safe_partial`, `accepted_header_refuted`, `header_division_refuted`.  Disjoint, sector-aligned and read back exactly for every dimension, degree bound, node count and content whose sizes fit into 64 bits. Refuted beyond: a header whose file size wraps is accepted although records lie outside the file, and a record length that wraps to 0 is divided by.

### C42 Page cache reads return the latest write

Model: LRU cache over a disk map; versioned fill.  Method: refinement; invariant over interleavings.

Status: proved.  Theorems (CacheProps.v): `cache_safe`, `reads_latest`, `reads_latest_uncached`, `reads_answer`, `no_error_no_throw`, `cache_size`, `flush_reaches_disk`.  Every interleaving of locked reads and writes, flushes and searches of all threads, every page size, capacity and outcome of the device accesses. Without a cache a failed write leaves the page in doubt (reads_latest_uncached).

### C43 Searches never install stale pages

Model: LRU cache over a disk map; versioned fill.  Method: refinement; invariant over interleavings.

Status: proved.  Theorems (CacheProps.v): `fill_latest`, `cache_never_stale`.  Same histories; the unlocked device read may return anything if the page was written to the device meanwhile. Wrap-around of the 64-bit versions and read_neighbor_group_stride, which has no version check, are left out.

### C44 Segment manifest round trip and validation

Model: text manifests.  Method: round trip; validation soundness.

Status: partial.  Theorems (SegManifestProps.v): `segment_round_trip`, `segment_loaded_good`, `segment_reload`, `segment_round_trip_refuted`.  Round trip for every manifest whose texts fit on a line and that is at most 1 MiB long; every file content that loads gives plain file names, a well-formed id, positive counts. Refuted without the condition on the texts: save does not check them, a line break in an extension adds a field.

### C45 Collection manifest round trip and validation

Model: text manifests.  Method: round trip; validation soundness.

Status: partial.  Theorems (SegManifestProps.v): `collection_round_trip`, `collection_loaded_good`, `collection_reload`, `collection_distinct_refuted`, `collection_size_refuted`, `collection_long_id_refuted`.  Round trip and well-formed ids for every manifest and file content. Refuted: repeated ids load; a collection with 49933 segments or more is saved but can not be loaded (1 MiB limit), and so is one with a segment number from 10^8 on.

### C46 Segment ids never collide

Model: id formatting.  Method: arithmetic; bound refuted beyond 10^8.

Status: partial.  Theorems (SegManifestProps.v): `segment_id_partial`, `segment_id_distinct_partial`, `segment_id_refuted`, `segment_id_distinct_refuted`.  Below 10^8. Refuted beyond: no id is well formed, and from 10^11 on the 16-byte buffer cuts the digits so that different numbers share an id.

### C47 Disk collection: flushed rows survive, search sees exactly them

Model: collection state machine with crash points.  Method: invariant; C48 refuted by witness.

Status: partial.  Theorems (DiskCollProps.v): `collection_history`, `collection_reopens`, `collection_flushes`, `vamana_reopen_refuted`, `vamana_metric_refuted`, `flush_after_failure_refuted`, `collection_too_long`, `collection_reopen_refuted`.  collection_history proves the safety half for every history of add, flush and open with arbitrary failures and crashes; collection_reopens and collection_flushes prove that opening and flushing keep working under stated conditions. The refutations show the conditions are needed: a Vamana seed above 32 bits or a metric other than L2 makes the collection unopenable, one failed read after publishing blocks flushing until reopened, and 49933 segments cannot be opened.

### C48 A rejected batch does not block later flushes

Model: collection state machine with crash points.  Method: invariant; C48 refuted by witness.

Status: partial.  Theorems (DiskCollProps.v): `rejected_batch_refuted`, `rejected_batch_blocks`, `rejected_batch_partial`.  As stated the claim is false: rejected rows stay pending and every later flush is refused (rejected_batch_refuted, and in general rejected_batch_blocks). Proved: after opening the collection again valid rows can be added and flushed.

### C49 Multi-segment search equals single-segment search

Model: merge of per-segment top-k.  Method: uniqueness of the sorted top-k.

Status: partial.  Theorems (CollSearchProps.v): `merge_exact`, `best_determined`, `search_flat_partial`, `search_flat_same_partial`, `search_flat_refuted`.  Merging exact per-segment answers gives the global k best for every distribution, NaN included (merge_exact). For flat segments the whole search is exact and independent of the distribution when no distance is NaN. Refuted with NaN: the heap of a flat segment never displaces a row whose distance is NaN, so one segment and two segments answer differently.

### C50 Batch search is independent of thread scheduling

Model: shared-counter work distribution.  Method: invariant over interleavings.

Status: partial.  Theorems (BatchProps.v): `batch_exact`, `batch_raises`, `batch_ends`, `diskann_raises_terminates`, `diskann_raises_refuted`, `diskann_twice_refuted`.  Every interleaving of the workers, with a relaxed flag: each query exactly once, same output as one thread, no deadlock, bounded length; when a search raises the collection raises one of those errors. Refuted for DiskANNIndex: an exception in a worker ends the process, and with 2^32 - 1 queries the 32-bit counter wraps and queries are searched again.

### C51 Locks exclude

Model: atomic-step lock models.  Method: invariant over interleavings; upgrade refuted.

Status: partial.  Theorems (LockProps.v): `spin_excludes`, `spin_available`, `shared_excludes`, `shared_excludes_asserts`, `shared_excludes_partial`, `shared_upgrade_refuted`, `shared_degrade_refuted`.  Spin lock: proved. Shared lock: proved without upgrade/degrade, and with them in builds with assertions; in a release build only under the stated discipline, and refuted otherwise: two readers that upgrade both become exclusive holders, and a spurious failure of degrade_lock closes the lock for ever.

### C52 Scheduler runs every task to completion exactly once

Model: worker/queue/gate transition systems.  Method: invariant over interleavings.

Status: partial.  Theorems (SchedProps.v): `scheduler_exact_partial`, `scheduler_progress`, `scheduler_no_worker_refuted`, `scheduler_await_refuted`, `scheduler_late_refuted`.  Proved for all interleavings, any number of workers, slots and tasks, tasks that suspend and create tasks, any order of the loads. Refuted: no worker (nothing runs), co_await scheduler.schedule() (resumed by two workers at once), scheduling from another thread while the workers stop (task never runs).

### C53 Thread pool completion waits

Model: worker/queue/gate transition systems.  Method: invariant over interleavings.

Status: proved.  Theorems (TPoolProps.v): `pool_once`, `pool_wait`, `pool_destroyed`, `pool_no_hang`, `pool_two_waiters_refuted`, `pool_reset_refuted`, `pool_no_thread_refuted`.  For all interleavings, condition variables with spurious and chosen wake-ups. The wait is for the tasks enqueued since the last reset, fewer than 2^32. Extra: no lost wake-up with one client; two concurrent waiters, a reset while tasks run and a pool without threads go wrong (refuted).

### C54 The asynchronous gate never over-admits and never loses a waiter

Model: worker/queue/gate transition systems.  Method: invariant over interleavings.

Status: partial.  Theorems (GateProps.v): `gate_exclusive`, `gate_fifo`, `gate_no_lost_waiter_partial`, `gate_rejected_refuted`, `gate_add_refuted`.  Proved for all interleavings: no object has two holders, waiters are served in arrival order, and no waiter stays suspended beside a free object as long as the thread pool accepts the resumption and add() is not called while a coroutine waits. Refuted otherwise: a rejected resumption loses waiter and object; add() with a parked waiter does not wake it.

### C55 Dictionary filters keep their meaning

Model: dictionary translation.  Method: refuted by witness; partial without sibling `$or`.

Status: partial.  Theorems (DictProps.v): `dict_filter_built`, `dict_filter_partial`, `dict_or_sibling_refuted`, `dict_or_empty_refuted`.  Proved for every dictionary in which "$or" is the only key of its dictionary and its list is not empty, any nesting, no NaN. Refuted otherwise: keys next to "$or" become alternatives, and an empty "$or" accepts every row.

### C56 Delete-by-filter deletes all matching rows and terminates

Model: deletion loop.  Method: refuted (items without id); partial.

Status: partial.  Theorems (DeleteProps.v): `delete_by_filter_partial`, `delete_by_filter_ends`, `delete_by_filter_runs`, `delete_by_filter_refuted`, `delete_not_updatable_refuted`.  Proved for every reachable table, filter and batch size from 1 to 2^32-1 when the matching rows have item ids and the index supports removal; in general it ends exactly when fewer rows than the batch size are stuck. Refuted otherwise: rows without item id (or an index without removal) make the loop endless or the returned number wrong.

### C57 Graph files round trip and malformed ones are rejected

Model: byte-exact graph files (memory graph and Vamana reader/writer).  Method: round trip; soundness of the reader checks.

Status: partial.  Theorems (GraphFileProps.v): `graph_file_round_trip_partial`, `graph_file_loaded_valid`, `graph_file_canonical`, `graph_file_isolated_refuted`.  Round trip for every graph whose nodes all have neighbours; whatever loads is valid and is exactly what saving it would write. Refuted for graphs with an isolated node: saved, but rejected on load.

### C58 Binary reader/writer round trip and bounds

Model: reader/writer.  Method: round trip; bounds.

Status: proved.  Theorems (BinaryIoProps.v): `binary_io_round_trip`, `binary_io_reads_in_bounds`, `binary_io_truncated`, `binary_io_failed_read_moves_offset_refuted`.  The extra refuted theorem is about the doc comment only.

### C59 Search effort parameters stay valid

Model: effort planning and adjustment with binary64/binary32 arithmetic (Flocq) and 32/64-bit wrap.  Method: arithmetic; monotonicity of rounding.

Status: partial.  Theorems (EffortProps.v): `validate_exact`, `effort_valid_partial`, `effort_enough`, `view_effort_valid_partial`, `floor_log2_exact`, `ceil_log2_exact`, `ceil_div_exact_partial`, `round_up_exact_partial`, `round_up_pow2_exact_partial`, `is_power_of_two_exact`, `effort_64_refuted`, `effort_enough_one_refuted`, `adjust_alone_refuted`, `ceil_div_refuted`.  Proved for every table of fewer than 2^32 rows, every number of matches and all parameters the validation accepts, with IEEE double arithmetic. Refuted for larger tables (64-bit ids): the list size is cut to 32 bits and can end below k. The rounding helpers are exact unless the sum wraps past 2^64.

### C60 Scalar quantization is monotone and bounded

Model: SQ8/SQ4 fit and encode in exact binary32 arithmetic (Flocq).  Method: rounding-error bounds; monotonicity.

Status: partial.  Theorems (QuantProps.v): `quantize_in_range_partial`, `quantize_monotone`, `quantize_ends`, `quantize_accurate`, `fit_exact`, `encode8_correct`, `encode4_correct`, `quantize_width_refuted`, `quantize_nan_refuted`.  Proved for all finite fitted ranges whose width does not overflow and all values that are not NaN. Refuted otherwise: an overflowing width or a NaN value leads to an undefined conversion.

### C61 Logged operations decode to what was logged

Model: payload encoders and decoders of the log records.  Method: round trip; bounds; rejection of malformed payloads.

Status: proved.  Theorems (BinaryIoProps.v): `insert_payload_round_trip`, `remove_item_payload_round_trip`, `remove_internal_payload_round_trip`.  

### C62 Quantized distances are those of the decoded vectors

Model: generic L2/IP distances over SQ8/SQ4 codes in binary32.  Method: equality with the distance of decoded vectors (SQ8); refuted by witness for SQ4 order and odd dimensions.

Status: partial.  Theorems (SqDistProps.v): `sq8_l2_accurate`, `sq8_ip_accurate`, `sq4_ip_accurate_partial`, `decoded_accurate`, `sq4_l2_accurate_partial`, `sq4_order_refuted`, `sq4_last_dimension_refuted`, `sq4_ip_refuted`.  Proved for 8-bit L2 and inner products (error bounds for all dimensions and ranges); for 4 bits only when neighbouring dimensions share a range and the dimension is even. Refuted in general: the 4-bit distance functions read the two codes of a byte in the opposite order to the encoder and skip the last dimension when it is odd.

### C63 Filtered search delivers the ids of its result list

Model: the id array as bytes, 32-bit stores reread at the id width.  Method: case analysis on the width; refuted for 64 bit for every nonempty result.

Status: partial.  Theorems (ResultIdsProps.v): `narrow_ids_partial`, `narrow_ids_recounted_partial`, `wide_ids_refuted`.  Proved for 32-bit ids for every pool, k and array contents. Refuted for 64-bit ids: every search with at least one result leaves a wrong id array (two 32-bit ids packed per entry).

### C64 Filtered graph search returns only matching rows, nearest first, and does not come up short

Model: hybrid_search_solo with all its modes, the vector iterator, masked search, effort adjustment, storage and matcher models.  Method: composition of the storage, matcher, search and ranking theorems; loop invariants of the iterator.

Status: partial.  Theorems (HybridProps.v): `filtered_search_right_partial`, `filtered_search_full_partial`, `filtered_search_iterative_partial`, `unfiltered_search_found`, `iterative_misses_refuted`.  Proved for every mode, graph, filter and effort decision when the metadata index can be trusted (index_safe), exact distances are finite and there are at most 2^31 ids. With the iterative hint the answer can come up short although rows match (refuted by witness). RaBitQ iterator not modelled.

### C65 Deleted vectors never come before live ones, nor into the results

Model: search over states reached by graph updates, removed rows at FLT_MAX.  Method: invariant over update histories, then the search theorem of C28.

Status: partial.  Theorems (UpdateProps.v): `search_after_updates`, `removed_after_live`, `removed_not_returned_refuted`.  Order, uniqueness and "removed after live" proved for every reachable state. "Not returned at all" refuted by witness: a removed vector is returned with distance FLT_MAX when fewer than k live vectors are reached.

### C66 Inserts and removals keep graph and vectors in step

Model: GraphUpdateJob insert, update and remove with its JobContext; hash containers iterate in an arbitrary order.  Method: invariant over update histories; exact description of each rewritten row; witnesses.

Status: partial.  Theorems (UpdateProps.v): `updates_never_fail`, `insert_answers`, `insert_succeeds`, `remove_answers`, `insert_relinks`, `insert_links_back`, `failed_relinking_blocks_inserts`, `inserted_found_refuted`, `inserted_linked_refuted`, `found_stays_found_refuted`, `relinked_edges_refuted`, `own_neighbour_refuted`, `insert_succeeds_refuted`.  Memory safety, ids in step, answers and the relinking rule proved for every sequence of operations. Refuted by witnesses: the new vector is linked, is found, vectors found before stay found, rows hold only old or new neighbours, no row lists itself, and every insert with room succeeds.

### C67 NSG construction ends and leaves every vector reachable

Model: NSGBuilder from any nearest-neighbour graph: search_on_graph, sync_prune, reverse links, compaction, dfs, attach_unlinked, tree_grow; the random draws, sort orders and distances are arbitrary.  Method: invariant on the edge table through every stage; reachability argument for the attaching stage; non-termination by an invariant of the loops; witnesses.

Status: partial.  Theorems (NsgProps.v): `nsg_build_valid`, `nsg_search_sorted`, `nsg_entry_best`, `nsg_prune_distinct`, `nsg_distinct_refuted`, `nsg_growth_keeps_links_partial`, `nsg_growth_links_nothing`, `nsg_all_reachable_refuted`, `nsg_small_collection_never_builds`, `nsg_full_graph_never_returns`, `nsg_degree_one_never_builds`.  Memory safety and valid rows proved for every input, and the last stage never removes a link. Refuted: the last stage attaches nothing when vector 0 is reachable (proved for all graphs), so unreachable vectors stay unreachable (witness); with fewer vectors than ef_construction, with one neighbour per vector, or when every row is full and a vector is unlinked, building never ends (proved for all such inputs); a finished row may list a neighbour twice (witness), though pruning never does. Searches return their results in order, and the entry point is the vector nearest to the centre among those found.

### C68 A fused graph has the links of both graphs

Model: FusionGraphBuilder::build_graph on two given edge tables.  Method: each fused row equals the first row's neighbours followed by the new ones of the second; width as maximum; reachability by induction on paths.

Status: proved.  Theorems (FusionProps.v): `fusion_unites`, `fusion_distinct`, `fusion_keeps_reachable`, `fusion_entry_points`.  For all pairs of edge tables of the given width. Neighbours are the ids before the first empty slot.

### C69 An HNSW index is well-formed on every layer and every vector can be reached

Model: HNSWImpl (one insertion at a time, in any order) and HNSWBuilder::build_graph.  Method: invariant of all link lists (length, distinct, layer, never empty once the layer has two nodes) kept by every insertion; termination by counting visited nodes; copying as lists; reachability by witness.

Status: partial.  Theorems (HnswProps.v): `hnsw_build_ok`, `hnsw_small_fully_linked`, `hnsw_index_searchable`, `hnsw_all_reachable_refuted`, `hnsw_few_neighbours_undefined`, `hnsw_no_vectors_undefined`.  Proved for R >= 4, every order of the insertions taken one at a time (interleavings of two insertions are not modelled). Refuted: reachability, with the default parameters, on the origin and 49 unit vectors; R = 2 or 3 and an empty collection are undefined for every input.

### C70 A list of visited nodes is clean when handed out and private to one search

Model: VisitedList and VisitedListPool as a transition system, one step per locked section or array access.  Method: refinement to the history of marks; invariant cells <= tag.

Status: proved.  Theorems (VisitedProps.v): `visited_lists_exact`.  For every interleaving of the steps of any number of searches.

### C71 A client keeps its collections and indices apart and brings them back

Model: Client, the parts of Collection and Index that touch the disk, and a disk as a map from paths to files.  Method: simulation of a map from names to contents, by an invariant between map, client and disk; refutations by concrete sessions.

Status: partial.  Theorems (ClientProps.v): `client_refines_partial`, `client_names_unique`, `client_delete_stays_inside_refuted`, `client_databases_apart_refuted`, `client_saved_comes_back_refuted`, `client_opens_refuted`.  Proved for names without slashes other than empty, "." and "..", and default database places; unique names for all names. Refuted otherwise: deleting the collection with an absolute or empty name or ".." removes other files; databases given side by side share their recovery directory; a name with a slash is saved but not found again; one bad schema.json keeps the client from opening.

### C72 RaBitQ estimates come from the neighbour's own code and from the query, on every instruction set

Model: packing, tables and accumulation of fastscan.hpp with each vector instruction as a function on lists of bytes and words, the rounded table and the estimate over rationals.  Method: lanes followed through the permutations, sums by induction over the blocks, rounding error by bounds on every entry; overflow and zero query by computation and proof.

Status: partial.  Theorems (FastscanProps.v): `fastscan_sums`, `fastscan_same`, `fastscan_table`, `fastscan_estimate_partial`, `fastscan_distance_partial`, `fastscan_inner_partial`, `fastscan_estimate_refuted`, `fastscan_zero_query_undefined`.  Lookup sums modulo 2^16 and the tables proved for all inputs; estimates proved up to 1028 dimensions for nonzero queries, in exact arithmetic. Refuted beyond: with 1088 dimensions the 16-bit sum wraps; a zero query has no defined table.

### C73 LASER scans every neighbour with the signs of its own code

Model: LASER's packing through 64-bit words, six-bit quantization, byte tables, the three accumulations and the conversion through int16.  Method: bits of words and bytes compared, the accumulation lemmas of C72; wrap-arounds by computation.

Status: partial.  Theorems (FastscanProps.v): `laser_blocks`, `laser_query_values`, `laser_scan_partial`, `laser_scan_refuted`, `laser_wide_refuted`.  Blocks and query values proved for all; scans proved up to 512 dimensions if no group of four values adds up to more than 255. Refuted otherwise: four maxima together wrap to 0, and from 1024 dimensions sums of 2^15 and more turn negative.

### C74 Product-quantized distances are those of the vectors the codes stand for

Model: training (k-means per chunk with arbitrary random choices), encoding, lookup tables and symmetric table over an abstract arithmetic; instance over the rationals.  Method: sums over dimensions split into chunks; argmin invariant; the mean minimizes the sum of squares, so a Lloyd step never increases the total.

Status: proved.  Theorems (PqProps.v): `pq_distance_exact`, `pq_symmetric_exact`, `pq_encode_best`, `pq_encode_overflow_refuted`, `pq_lossless`, `pq_training_improves`.  In exact arithmetic; float rounding is not bounded. Optimal codes need one codeword per chunk nearer than the largest float (otherwise codeword 0 is taken, shown by a counterexample).

### C75 Product-quantization tables do not depend on how they were computed, stored or read

Model: as C74, with worker orders as arbitrary permutations, tiles of 96 points, and files as bytes.  Method: rows written in any order give the same array; tile lemmas by induction on the batch; byte round trip.

Status: proved.  Theorems (PqProps.v): `pq_batch_same`, `pq_distance_unchecked`, `pq_symmetric_checks`, `pq_train_any_order`, `pq_train_checks`, `pq_encode_any_order`, `pq_encode_one`, `pq_save_load`, `pq_load_checks`.  For any arithmetic, so also for rounded floats. Points past the end are not checked by pq_distance (reads outside the array).

### C76 A Vamana build by any number of threads ends in a well-formed graph

Model: the builder as threads whose steps are the accesses to neighbour lists (each under a mutex) with the thread's own work in between; dynamic chunks of 2048 nodes; cleanup likewise.  Method: an invariant of rows and threads preserved by every step of every thread, and a measure that every step decreases unless the thread rests.

Status: proved.  Theorems (VBuildProps.v): `vbuild_linking_safe`, `vbuild_linking_ends`, `vbuild_cleanup_safe`, `vbuild_well_formed`, `vbuild_finishes`.  For every interleaving of the accesses to neighbour lists (each under its node's mutex); node numbers are not wrapped to 32 bits.

### C77 After a Vamana build every vector can be reached from the entry point

Model: as C76.  Method: with one chunk only one thread links; pruning keeps, for every node, a nearest earlier node or one that leads closer, so by induction every node is reached, also after the entry point's own list was replaced; single-precision division is handled by a lemma on rounding.  Refutations by running the model; the race by an invariant that nothing leads to the lost node again.

Status: partial.  Theorems (VBuildProps.v): `vbuild_reachable_partial`, `vbuild_reachable_refuted_equal_vectors`, `vbuild_reachable_refuted_distinct_vectors`, `vbuild_reachable_refuted_race`.  Proved for at most R + 1 vectors, not more than L, maxc + 1 or 2048 of them, for all data, threads and interleavings. False otherwise: with 66 equal vectors and the defaults; with seven distinct vectors and R = 4; and, whatever R and L, with 2049 vectors and two threads, where a store overwrites a link back.

### C78 The entry point of a Vamana graph is a vector nearest to the centroid, determined by the data

Model: static blocks of 65536 nodes, a local scan per thread and the critical sections in any order.  Method: a scan returns the first least entry; the merge is such a scan too.

Status: partial.  Theorems (VBuildProps.v): `entry_point_nearest`, `entry_point_in_range`, `entry_point_first_small`, `entry_point_unique`, `entry_point_deterministic_refuted`.  Always a nearest vector; the same for the same data up to 65536 vectors or without ties. With ties between blocks it depends on which thread reports first.

### C79 Sharding gives every vector to its k nearest centres, and the shard files hold exactly that

Model: the two scans over a row of distances with NaNs and the FLT_MAX sentinels, the streams of the shards, the block loop with fuel.  Method: the scan keeps the k least positions of the sentinels followed by the row, in the order of value and position; the streams after g vectors are a function of the list of vectors each shard was given.

Status: partial.  Theorems (ShardProps.v): `shard_assignment_exact`, `nearest_centres_unique`, `shard_replication`, `shard_assignment_safe`, `shard_input_complete`, `shard_replication_refuted_infinite`, `shard_nearest_refuted_nan`, `shard_zero_block_refuted`.  Proved when all distances are numbers and k of them below FLT_MAX. False when distances overflow (the vector is written twice to shard 0 and the check of the total passes) or are NaN; a block size of 0 runs for ever.

### C80 A build shard by shard covers every vector and its entry point is nearest to the centroid

Model: load_fbin, the loop over shards with an arbitrary builder, the merge of GraphFileModel.v, and the medoid scan with arbitrary division among blocks and threads.  Method: the shard files satisfy the hypotheses of merge_shards_exact; a scan of scans is a scan.

Status: partial.  Theorems (ShardProps.v): `partitioned_build_exact`, `partitioned_build_refuted_empty_shard`, `medoid_streaming_nearest`, `medoid_streaming_in_range`.  Proved when every shard gets a vector. If one gets none, load_fbin refuses its file and the whole build throws.

### C81 The number of shards is the smallest one that fits the memory budget

Model: the growth loop over arbitrary estimates.  Method: induction on the fuel.

Status: proved.  Theorems (ShardProps.v): `num_parts_least`.  For estimates and a budget that are numbers; the estimates themselves (k-means, sampling, the RAM formula) are parameters.

### C82 k-means++ picks different vectors and ends

Model: the sums, the dart, the re-draw loop with fuel and the running minimum over distances that are finite, infinite or NaN, with the rounding of additions and products as a parameter.  Method: a dart below the sum lands where the prefix sum grows, hence at a positive distance; the running minimum is the distance to the nearest pick.

Status: partial.  Theorems (KmeansProps.v): `kmeanspp_spread`, `kmeanspp_distinct`, `kmeanspp_refuted_not_finite`.  Proved for finite distances and any rounding of the double sums. False when a point's distances overflow or are NaN: with three or more centres the re-draw loop never ends. IEEE comparisons are assumed, which -Ofast does not promise.

### C83 Training the shard centres never makes them worse

Model: Lloyd's iterations over rationals, the stopping rule, the estimates.  Method: the mean is the best centre of its members (as for C74), the nearest centre the best assignment; equal vectors are computed through and handed to the model of the partitioned build.

Status: partial.  Theorems (KmeansProps.v): `lloyd_residual_descends`, `lloyd_centres`, `run_lloyds_exact`, `kmeans_train_improves`, `cluster_sizes_exact`, `kmeans_refuted_equal_vectors`.  Proved in exact arithmetic. Fitness for a partitioned build is false: empty clusters become zero vectors, and a sample of equal vectors always ends in a shard without vectors, so that the build throws.

### C84 The quantized search on disk returns true distances, best first, whatever the order of reads

Model: tiles of neighbours, batches and the pipeline of reads as loops with fuel; the places nodes are found in (node cache, page cache, device) and the completions of each poll are parameters.  Method: the search invariant of C28 with a third kind of node, expanded but not yet arrived; the loops return it to the ordinary invariant, from which C28's lemmas give the candidates; reranking is a stable insertion sort.

Status: partial.  Theorems (PqSearchProps.v): `pq_search_ranked`, `pq_search_reads_once`, `pq_search_two_stages`, `pq_search_exact`, `pq_search_same`, `pq_search_refuted_rerank_count`, `pq_search_refuted_wide_beam`, `pq_search_refuted_completion_order`, `pq_search_refuted_deterministic`.  Termination, true distances, order, single processing, rerank without reads and exactness are proved for every order of completions. Refuted: a rerank_count below top_k returns fewer; a beam wider than the page slots makes asynchronous searches throw; the order of completions decides results without any ties; deterministic searches depend on the page cache.

### C85 Searches run as coroutines return what the synchronous ones do

Model: both coroutines as loops with fuel over a wave buffer; what is cached is a parameter; a wave of reads fills the buffer in one step.  Method: the invariants of C28 and C84 hold between waves; the frontier is a function of the set of nodes found, so the order in which hits and misses are absorbed does not matter, and each step is a step of the textbook search; with quantization a simulation of the deterministic loop that ignores the page slots.

Status: partial.  Theorems (CoroSearchProps.v): `coro_search_textbook`, `coro_search_ranked`, `coro_search_same`, `coro_pq_ranked`, `coro_pq_reads_once`, `coro_pq_two_stages`, `coro_pq_same`, `coro_pq_rerank_throws`, `coro_pq_refuted_page_slots`.  Without quantization proved in full, for caches of any content (the code promises it only for empty ones). With quantization everything is proved but the equality with the deterministic search, which holds when the beam is no wider than the page slots (coro_pq_same) and is refuted for wider beams (coro_pq_refuted_page_slots). The reactor and the suspension of coroutines are not modelled: a wave is one step.

### C86 The cache of node records holds the nodes nearest the medoid, with exactly their records

Model: generate with its breadth-first search, the packing, the override map (one instead of 64 shards), save, load, configure_geometry, upsert, relink and drop, on byte strings.  Specification: shortest paths; a map from ids to coordinates and neighbours with a set of pinned ids.  Method: the queue is sorted by distance and at most one level deep, and every node closer than the head has been expanded; the cache is a representation of two association lists, kept by every operation; reading the files back is the round trip of the encodings.

Status: partial.  Theorems (NodeCacheProps.v): `node_cache_closest`, `node_cache_refines`, `node_cache_matches_disk`, `node_cache_load_checked`, `node_cache_refuted_zero_length`.  Everything is proved for every history whose node ids stay below a limit for which the file sizes fit into 64 bits. For damaged files the bounds are proved when the node length in cache_nodes.bin is not 0; a length of 0 is accepted and a lookup then reads outside the cache (node_cache_refuted_zero_length). An operation is one step; the locks of the shards are not modelled.

### C87 Searches of an updatable disk index see every update

Model: disk, page cache contents, cache of records (C86) and its files; inserting, relinking, write-back, flush_pages, flush and load as steps.  Method: invariant: cached records are the latest, of all other nodes the disk has the latest; and as long as no update follows a flush, so do the files.  A history with flush_pages and reopening refutes the rest.

Status: partial.  Theorems (MirrorProps.v): `search_reads_latest_partial`, `search_reads_refuted_flush_pages`.  Proved for every history in which the index is only closed when no update came after the last flush. What is missing is refuted: after flush_pages and reopening, searches see the old record of a cached node although the disk has the new one. The page cache is represented by C42's theorem that reads return the latest write; relinking nodes that were never written is left out.

### C88 The random rotations keep inner products, lengths and distances

Model: the portable loops of the transform, the sign flips, the walk, the scaling and both rotators on lists of real numbers with checked accesses.  Specification: Sylvester's recursion, inner product, distance.  Method: after i rounds every block of 2^i is its transform; every part multiplies all inner products by a constant, and the constants multiply to one.

Status: partial.  Theorems (RotateProps.v): `fht_is_walsh_hadamard`, `rabitq_rotation_isometry`, `rabitq_rotator_accepts`, `rabitq_rotation_refuted_small_padding`, `laser_rotation_isometry`, `laser_rotator_accepts`.  In real numbers: rounding is left out, and so are the AVX kernels and the matrix rotator. The transform is proved for every size, the isometry for all accepted dimensions and all paddings not below the dimension; a smaller padding is accepted by choose_rotator and refuted.

### C89 The RaBitQ graph is regular: every vector gets exactly 32 distinct neighbours with true distances

Model: random_init, find_candidates on the pool of C25, heuristic_prune, the reverse edges as steps of one loop per vertex in any interleaving, the supplement with its binary search, iter and build.  Specification: a regular graph of good rows, fair numbers, complete interleavings, diverse choices.  Method: post-conditions through every stage, an invariant of the interleaved steps (a vertex is in no buffer of a neighbour it has still to visit), measures for the two kinds of unbounded loops.

Status: partial.  Theorems (QgProps.v): `qg_regular`, `qg_builds`, `qg_refuted_few_vectors`, `qg_prune_diverse`.  Regularity, true distances and memory safety are proved for every number of vectors, estimate, random number and interleaving; termination is proved with more vectors than the degree bound and fair random numbers, and refuted (for all random numbers) with as many or fewer. Not modelled: the choice of the entry point (any vertex), the codes, NaN distances, and the unlocked read of the end of a row, taken as one atomic step.

### C90 A batch read through the shared io_uring ends with exactly its own results

Model: read_batch, submit_reads with partial, interrupted, retried and refused submissions, try_reap, dispatch_cqe and on_slot_complete as steps of a shared ring, with a frame per batch whose use after its end is an error.  Specification: each read answered once, short reads, refusals, steps that count.  Method: an invariant tying the countdown of every batch to the reads at the kernel, completed, in a reaper's hand and never submitted; a measure that every step decreases.

Status: proved.  Theorems (UringProps.v): `uring_no_dangling`, `uring_batch_result`, `uring_ended_quiet`, `uring_throws_only_refused`, `uring_batches_end`.  Any number of batches, any interleaving of the steps of submitters, reapers and waiters, any kernel answers. Not modelled: memory orderings (steps are atomic), the destructor and in_flight_ (read only there), scheduling on the pool, the bytes read.

### C91 A collection is a map from item ids to vectors and records

Model: insert_nondurable, remove_nondurable and upsert_nondurable with its rollback, get_by_id and reindex, on the state of UpdateModel.v together with that of StorageModel.v.  Specification: what an item holds, put, gone, same.  Method: an invariant (both components' invariants, and every row has a live vector) kept by every operation; each operation's effect from insert_spec, remove_spec and the table refined by the storage.

Status: partial.  Theorems (ItemsProps.v): `items_in_step`, `get_exact`, `insert_puts`, `insert_new_succeeds`, `delete_removes`, `upsert_puts`, `upsert_atomic_partial`, `upsert_refuted_full`, `upsert_refuted_narrow`, `insert_refuted_full`, `reindex_keeps`, `reindex_refuted_unnamed`.  Composes the graph updates of C66 with the scalar storage of C18. The atomicity of upserts is proved with two free slots, ef at least the degree, a rollback that RocksDB accepts and no removed node without recorded neighbours; it is refuted for a full index (the item is deleted and -1 returned) and for ef below the degree (the item is deleted and an exception raised). A new item is dropped without an exception by a full index. Rebuilding drops rows without an item id. Not modelled: the write-ahead log (C06, C61), normalization.

### C92 A LASER search answers with the closest nodes whatever the order of its reads

Model: disk_search_qg loop by loop (popping, submitting, cached nodes, processing, waiting, draining) with the kernel as a list of answers that pick any read in flight and may fail; the search buffer of PoolModel.v.  Specification: reachable nodes, candidates, the closest ids, which candidates may be left out.  Method: an invariant over slots, requests in flight, pages and visited nodes; a potential (unexplored candidates and unseen edges) for termination; a budget of reports against nodes; witnesses for the refutations.

Status: partial.  Theorems (LaserSearchProps.v): `laser_search_right`, `laser_search_ends`, `laser_exhaustive_partial`, `laser_follows_partial`, `best_medoid_closest`, `laser_width0_refuted`, `laser_exhaustive_refuted`, `laser_order_refuted`, `laser_failed_read_refuted`, `laser_fill_refuted`.  Slots, termination, own records, true distances and the choice of candidates are proved for all orders and timings of successful reads. Exhaustiveness is proved for beams of width 1; for wider beams all neighbours are followed but those of at most half a beam of last nodes (laser_follows_partial), and exhaustiveness is refuted. Refuted as well: the answer does not depend on timing; failed reads are noticed (the result of a read is ignored); a beam of width 0 ends; places without a result are told apart (they are filled with id 0). Not modelled: waiting for a workspace, PCA, the estimates (FastscanModel.v), the hash set of visited nodes (VisitedModel.v), refused io_submits.

### C93 LASER segments appear whole or not at all, keep their labels, and are searched with the parameters asked for

Model: LaserSegmentImporter (checks, artifact names, extras of the manifest, the steps on the collection directory with the guard, any step failing or crashing, others adding directories), LaserSegmentSearcher (all checks of the constructor on a directory, the cached parameters with set_params of the engine, the mapping to labels), on top of SegManifestModel.v and LaserSearchModel.v.  Specification: what a segment holds, a sound segment, what a query is answered with.  Method: induction over the steps; a closed form of opening an imported directory through the round trip of the manifest; an invariant (the workspace has the parameters last set) over histories; composition with C92; general theorems for the refutations.

Status: partial.  Theorems (LaserSegProps.v): `laser_import_whole`, `laser_import_returns`, `laser_import_checks`, `laser_import_opens_partial`, `laser_open_sound`, `laser_params_in_force`, `laser_params_calls`, `laser_segment_answers`, `laser_import_opens_refuted`, `laser_power_loss_refuted`, `laser_stale_params_refuted`, `laser_thrown_search_refuted`.  Atomicity is proved for every failing or crashing step, soundness for every directory that opens, parameters for all sequences of successful searches, and the hits are the labels of the answer of C92. Opening after importing is proved for degrees above zero, fewer than 2^32 points and non-empty optional files; for each of the others the import returns and the segment never opens (laser_import_opens_refuted). Refuted as well: opening after a loss of power (the copied files are not synced), parameters after a failed set_params (later searches wait for ever) and after a search that throws. Not modelled: the loading of the native index, the text of the float (printing and std::stof), symbolic links.

### C94 Index.fit leaves the PCA of the vectors and seed it was given, however often it was interrupted and whatever it found

Model: pca_transform_and_save on bytes (start chunk, truncation, header, loop over chunks) with what a killed writer can leave, the validators of the PCA files, the seed sidecar and the PCA step of Index.fit with what a killed call can leave.  Specification: the base file as header and transformed rows, the expected files, the directories after any calls.  Method: closed form of the chunk loop by induction, invariant (the base file is a beginning of the right one) over all histories; general theorems for the refutations.

Status: partial.  Theorems (PcaFileProps.v): `fit_pca_resumes_partial`, `fit_pca_short_partial`, `fit_pca_readable`, `fit_pca_killed_untrusted`, `fit_pca_seed_refuted`, `fit_pca_vectors_refuted`, `fit_pca_fewer_refuted`.  Proved for any number of earlier calls with the same vectors and seed, each killed at any byte or run to its end, and, whatever is found, for base files shorter than one chunk (100000 vectors by default). A killed call for another seed leaves no sidecar, so nothing is trusted afterwards. Refuted for another seed (the rebuild keeps every whole chunk transformed with the old PCA beside the new parameters), for other vectors of the same shape with the same seed (everything is kept) and for fewer vectors (the base file keeps the header and rows of the earlier ones, even without skip_existing). Only the PCA step and the sidecar are modelled: the vectors come from a file, and the branch without PCA, the medoids, Vamana and the LASER index are not modelled; fitting and transforming are an arbitrary function of seed and vectors, row by row.

## What is modelled and what is left out, file by file

The header of each model file, verbatim; simplifications local to one definition are in the comment of that definition.

* **WalModel.v**: Model of the write-ahead log: include/recovery/write_ahead_log.hpp.
* **RecoveryModel.v**: Model of crash recovery: include/recovery/recovery_manager.hpp and the durable operations of python/include/index.hpp. The contents of an index (vectors, graph, scalar data) are an abstract type [S] and a mutation is a partial function [apply] on it ([None] when the C++ call throws). Assumptions recorded in DESIGN.md: [apply] is deterministic and leaves the contents unchanged when it throws; a snapshot's component files, once completely written, load back as the contents that were saved.
* **SnapshotManifestModel.v**: Model of the snapshot manifest text: include/recovery/snapshot_manifest.hpp, and of the CURRENT pointer file of include/recovery/recovery_manager.hpp.
* **ScalarDataModel.v**: Model of include/utils/scalar_data.hpp: records stored per row.
* **BinaryIoModel.v**: Model of include/utils/binary_io.hpp and of the log payloads built from it in python/include/index.hpp.
* **FilterModel.v**: Model of include/utils/metadata_filter.hpp.
* **IndexEncodingModel.v**: Model of include/utils/index_encoding.hpp.
* **StorageModel.v**: Model of include/storage/rocksdb_storage.hpp, for IDType = uint32_t. RocksDB is the ordered map of Kv.v. Not modelled: I/O errors reported by RocksDB, a database opened read-only (every writer throws), and the concurrency of readers with the writer holding write_mutex_.
* **MatcherModel.v**: Model of include/utils/metadata_filter_matcher.hpp (MetadataFilterExecutor<uint32_t>).
* **BitsetModel.v**: Model of the bit sets and visited sets of include/utils/query_utils.hpp (58-277), include/index/graph/diskann/visited_bitset.hpp and include/utils/rabitq_utils/search_utils/hashset.hpp. Memory allocation does not fail; positions are size_t or uint32_t values.
* **PoolModel.v**: Bounded candidate pools of the in-memory graph searches. A distance is represented by an integer that orders like it. For a float that is not NaN this is [float_key] of its bit pattern: the pools only compare distances, and comparing two such floats is comparing their keys (both zeros have key 0). Sizes and indices are natural numbers: the capacity is an int (query_utils.hpp:281), so no sum wraps.
* **NpqModel.v**: NeighborPriorityQueue, include/index/graph/vamana/robust_prune.hpp:20-123. Distances are integers that order like the floats (see PoolModel; NaN is excluded); sizes are natural numbers (size_t, no sum wraps).
* **PruneModel.v**: Robust prune, include/index/graph/vamana/robust_prune.hpp:124-209. Single-precision floats are the standard library's [spec_float] with 24 bits of precision and round-to-nearest-even, so division and comparison (also of infinities and NaN) are exact.
* **TombModel.v**: TombstoneBitmap and TombstoneSnapshot, include/index/graph/diskann/tombstone_bitmap.hpp:50-305, and SlotAllocator, include/index/graph/diskann/slot_allocator.hpp. Sequential executions: every access is one step (the callers hold the update lock, 108). Memory allocation and stream writes do not fail; ids are uint64_t values.
* **StoreModel.v**: SequentialStorage, include/storage/sequential_storage.hpp:17-130, and the counters of RawSpace, include/space/raw_space.hpp, and SQ8Space, include/space/sq8_space.hpp. Memory is a list of bytes and an access outside it is [OutOfBounds]; allocation and stream writes do not fail. The scalar data of a space is not part of this model (see StorageModel).
* **SearchModel.v**: Greedy graph search: VamanaGreedySearch::search (include/index/graph/vamana/vamana_greedy_search.hpp:79-150), GraphSearchJob::search_solo and search_solo_updated (include/executor/jobs/graph_search_job.hpp:636-690, 698-805) with Graph::initialize_search (include/index/graph/graph.hpp:136-147) and OverlayGraph::initialize (include/index/graph/overlay_graph.hpp:100-124). The distance of the query to node [i] is [dist i], an integer ordered like the float (PoolModel; NaN excluded). Loops with no static bound take fuel; [OutOfFuel] is told apart from every outcome of the code. Beside its result a search returns the nodes it expanded, in order (the nodes whose neighbour list it read); the code does not keep this list. Prefetching is left out. The coroutine versions (502-627) run the same statements with suspension points between them.
* **DiskSearchModel.v**: The search on disk, without product quantization: disk_greedy_search (include/index/graph/diskann/beam_search.hpp:125-168, 184-465) with the scratch of a search thread (include/index/graph/diskann/search_scratch.hpp:40-325). A node is marked visited before it is read, and read at most once in a search, so its record is a function of its id: its neighbours [d_nbrs] and its distance to the query [d_dist]. That a page read from the node cache, from the page cache or from the file holds the node's record is the subject of C41-C43. What is not under the control of the search is given by arbitrary functions: where each node is found ([src]) and which reads have completed when ([events]). Distances are integers ordered like the floats (NaN excluded). Statistics, timing, prefetching, page versions and failed reads (they throw) are left out.
* **RankModel.v**: Exact ranking: the rerank of GraphSearchJob (include/executor/jobs/graph_search_job.hpp:130-347), the brute-force filtered search (include/executor/jobs/graph_hybrid_search_job.hpp:142-286, 465-483) and the brute-force search through the materialized view (python/include/materialized_view.hpp:199-292, 317-460, 486-550, 619-691, 873-923, python/include/index.hpp:85-104). Distances are integers ordered like the floats (NaN excluded: the comparison of the heap would not be an order).
* **GraphFileModel.v**: Graph files: save_graph (include/index/graph/vamana/vamana_writer.hpp:33-72), VamanaReader (include/index/graph/vamana/vamana_reader.hpp:59-217), read_idmap and merge_shards (include/index/graph/vamana/shard_merger.hpp:31-52, 179-378). Files are byte strings; opening, creating directories and I/O errors other than short reads are left out.
* **LayoutModel.v**: The disk layout, include/index/graph/diskann/disk_layout.hpp:46-352. A float is its 32 bits. Files are byte strings; failing to open or write one is left out.
* **IndexModel.v**: The labels of the updatable disk index, include/index/graph/diskann/diskann_index.hpp: build, load, insert, remove and their batch forms, flush, and the label lookup of search. Left out: the graph (neighbour lists, reconnecting and the safety net change no label, slot or vector), product quantization, the node cache files, the checks for null pointers, and the locks (update_serial_mutex_ makes the update calls sequential; inside a batch every locked section is one step). What page I/O returns for a slot is the vector last written to it (the page cache is modelled in CacheModel).
* **CacheModel.v**: The page cache of the updatable disk index: include/index/graph/diskann/disk_page_cache.hpp and the page functions of include/index/graph/diskann/disk_page_io.hpp. Every section under a shard's mutex is one step; the device reads of the searches (and of the reactor waves) happen between such steps. Left out: how records sit in a page (LayoutModel), the transient cache of coordinates, the extension of the file (a page behind its end makes the read fail), and wrap-around of the 64-bit page versions.
* **SegManifestModel.v**: The text manifests of disk collections: include/index/disk/segment_manifest.hpp, the names of include/index/disk/types.hpp and include/utils/metric_type.hpp, and format_segment_id of include/index/disk/disk_collection.hpp. Left out: opening, writing and syncing the file (its content is given), the logging, and the texts of the exceptions.
* **DiskCollModel.v**: Disk collections: include/index/disk/disk_collection.hpp (create, open, add_batch, flush, the orphan scan), include/index/disk/segment_factory.hpp, include/index/disk/disk_flat_builder.hpp, vamana_segment_builder.hpp, and the constructors of disk_flat_searcher.hpp and vamana_segment_searcher.hpp. The file system is a map of names to contents in the directory of the collection and one in each directory below segments/. Every access to it takes one [event] from the environment: it works, it fails (the code throws, except where it ignores the error) or the process dies there. What is written survives: losing unsynced writes in a power failure is left out. Left out: disk_laser (needs ALAYA_ENABLE_LASER; without it the code throws, and so does the model), the lock file, symbolic links, the log, the alpha parameter and the medoid in the manifests of disk_vamana. A searcher maps the files of its segment, which nothing changes once published; here it copies the rows.
* **CollSearchModel.v**: Searching a disk collection: search of DiskCollection (include/index/disk/disk_collection.hpp 657-668, 1036-1106) and of DiskFlatSegmentSearcher (include/index/disk/disk_flat_searcher.hpp 117-205). A distance is an integer ordered like the floats, or NaN. (The code can be compiled with -Ofast, where isnan need not work; here it does.) Left out: disk_laser.
* **BatchModel.v**: Batch searches with several threads: batch_search of DiskCollection (include/index/disk/disk_collection.hpp 1122-1229) and of DiskANNIndex (include/index/graph/diskann/diskann_index.hpp 512-562). A step is one access to something shared: the counter, the flag, the mutex, a slot of the output. A schedule says which thread takes the next step. The search of one query is a function of the query (C47: the segments do not change during a search; C40 treats updates of a DiskANN index). Left out: failing to start a thread, null pointers.
* **LockModel.v**: The locks of include/utils/locks.hpp: SpinLock (79-92), SpinLockGuard (94-107) and SharedLock (108-165). A step is one operation on the atomic variable of the lock, or the decision of a thread to call a function of it. A schedule says which thread takes the next step and, where the thread is a client of the lock, what it calls. A thread unlocks only what it has locked. The memory orders are left out: the steps of one atomic variable are totally ordered under every one of them.
* **SchedModel.v**: The coroutine scheduler: Worker::run (include/executor/worker.hpp 99-124), Scheduler (include/executor/scheduler.hpp) and TaskQueue (include/executor/task_queue.hpp). A step is one access to something shared: the queue, a counter, a coroutine. A schedule says which worker takes the next step and, where that is not determined by the code, how it goes: what the coroutine does next, which task the queue hands out. Tasks are numbered in the order in which they are created. Simplified: the lock of the enqueuing functions (scheduler.hpp 174, 189) is left out, which allows more schedules; the counters do not wrap (fewer than 2^64 tasks); task_counter_ of the queue is never read and left out; run_on_current_cpu (worker.hpp 136-145), which nothing calls, is left out.
* **TPoolModel.v**: The thread pool: ThreadPool (include/utils/thread_pool.hpp 17-148), used by HNSWBuilder (include/index/graph/hnsw/hnsw_builder.hpp 106-180) and NNDescent (include/index/graph/knng/nndescent.hpp 243-330). A step is what a thread does between taking queue_mutex_ and giving it back (waiting on a condition variable gives it back), or something it does without the mutex: running a task, notifying. A schedule says which thread takes the next step and, for a notification, which of the sleeping threads is woken. Tasks are numbered in the order in which they are enqueued; a task does not use the pool, and an exception of it stays in its future (packaged_task, 75). Left out: failing to start a thread.
* **GateModel.v**: The coroutine gate: AsyncGate (include/utils/coro_gate.hpp 38-125), the pool of search buffers of DiskANNIndex (include/index/graph/diskann/diskann_index.hpp 1146-1160, 2359). A step is what a coroutine does under the mutex of the gate, or a call of the thread pool. A schedule says which coroutine takes the next step. Coroutines and objects are numbers. A coroutine releases only what it holds.
* **DictModel.v**: Filters written as Python dictionaries: _build_filter of Collection (python/src/alayalite/collection.py 460-501), with add_eq ... add_sub_filter of MetadataFilter (include/utils/metadata_filter.hpp 223-317). Simplified: a Python number, string or truth value is the MetadataValue that pybind makes of it; a MetadataFilter instead of a dictionary (469-470) is left out; the recursion limit of Python is left out; an empty string or dictionary in place of the list of "$and" or "$or" (accepted, no iteration) counts as an error.
* **DeleteModel.v**: Deletion by filter: delete_by_filter of Collection (python/src/alayalite/collection.py 354-380), on the scalar storage. Simplified: the vectors and the graph are left out (GraphUpdateJob::remove touches them after the scalar row); the filter is the one that _build_filter made (DictModel.v); item ids pass through Python strings unchanged.
* **QuantModel.v**: Scalar quantization: SQ8Quantizer<float> (include/space/quant/sq8.hpp) and SQ4Quantizer<float> (include/space/quant/sq4.hpp). float is the only DataType instantiated (python/include/dispatch_generated.hpp). Numbers are the IEEE-754 binary32 numbers of Flocq with rounding to nearest even. The release build uses -Ofast (cmake/AlayaFlags.cmake 39), which lets the compiler depart from this arithmetic; that is left out.
* **SqDistModel.v**: Distances of quantized vectors: the L2 functions of include/simd/distance_l2.ipp and the inner-product functions of include/simd/distance_ip.ipp. Only the generic functions are modelled; the AVX ones read the codes in the same way and differ in the order of the additions and in fusing them with the multiplications. Vectors of codes are lists of bytes; the ranges (min, max) are the quantizer's.
* **EffortModel.v**: Search effort: GraphHybridSearchJob (include/executor/jobs/graph_hybrid_search_job.hpp), MaterializedView (python/include/materialized_view.hpp) and the integer helpers of include/utils/math.hpp. double is the IEEE-754 binary64 of Flocq with rounding to nearest even (the release build uses -Ofast, which is left out).
* **ResultIdsModel.v**: Copying the ids of the result list into the caller's id array. Modelled: include/executor/jobs/graph_hybrid_search_job.hpp 82-87, 142-156; include/executor/jobs/graph_search_job.hpp 858-859, 886-887; include/utils/rabitq_utils/search_utils/buffer.hpp 124-128. The id array is memory the caller owns: a byte string of [w] bytes for each of its [k] entries, where [w = sizeof(IDType)]. The functions below write into it through a pointer to 32-bit numbers, as the code does. (The C++ standard leaves such a write undefined when IDType is not a 32-bit number; the bytes are what compilers produce without assuming anything about aliasing.)
* **HybridModel.v**: Filtered graph search: GraphVectorIterator (include/executor/vector_iterator.hpp:36-160), the masked search of GraphSearchJob (include/executor/jobs/graph_search_job.hpp:806-860) and GraphHybridSearchJob (include/executor/jobs/graph_hybrid_search_job.hpp:82-156, 288-454), for 32-bit ids (64-bit ids: ResultIdsModel.v). Distances are integers ordered like the floats, NaN excluded (PoolModel.v). Prefetching, logging and the look-up of the item ids of the results are left out, and so is the iterator for RaBitQ spaces (vector_iterator.hpp:162-300).
* **UpdateModel.v**: GraphUpdateJob, include/executor/jobs/graph_update_job.hpp:32-256, with its JobContext (include/executor/jobs/job_context.hpp:11-18): inserting vectors into and removing them from an in-memory graph index, and searching it. Modelled for a space that is its own build space (RawSpace; the SQ spaces keep a second, raw space in step with the first, 233-254) and 32-bit ids. The slots of the two SequentialStorages (StoreModel.v) are lists, their validity bits lists of booleans. The scalar storage (StorageModel.v) is reduced to whether it accepts a row. Asserts are not evaluated.
* **NsgModel.v**: The NSG graph builder, /repo/include/index/graph/nsg/nsg_builder.hpp. A graph is its edge table: one row per vector, each row [max_nbrs_] slots holding a neighbour id or [kEmptyId] (graph.hpp 33-55, filled with [kEmptyId] on construction). Distances are integer keys: the code only compares them. Ids are 32-bit (IDType = uint32_t). Simplified: the nearest-neighbour graph produced by NNDescent (nndescent.hpp) is an arbitrary edge table given to the builder; the vector nearest to the data's centre is given by an arbitrary distance to the centre; the two random generators are arbitrary streams of raw draws; std::sort is an arbitrary function, constrained in the specification; building with one thread is modelled (thread_num = 1, the default); the table has one row per vector, not per unit of capacity.
* **FusionModel.v**: Fusing two graphs, /repo/include/index/graph/fusion_graph.hpp. Graphs are edge tables as in NsgModel.v. Simplified: the two graphs are given (they are built by the two builders, lines 53-54); the tables have one row per vector, not per unit of capacity.
* **HnswModel.v**: The HNSW builder: HNSWImpl (/repo/include/index/graph/hnsw/hnswlib.hpp) and HNSWBuilder::build_graph (/repo/include/index/graph/hnsw/hnsw_builder.hpp). The result is the graph searched in SearchModel.v. Distances are integer keys: the code only compares and negates them. Ids are 32-bit. Simplified: points are inserted one after the other, in any order after point 0 (with several threads insertions overlap); the level drawn for a point (163-167) is arbitrary, the conversion of the draw being undefined when it is infinite; a link list is the list of its first [count] ids, writing more ids than it has room for, or using a list of a level the node does not have, is [OutOfBounds]; the order in which equal elements leave a std::priority_queue is left to [lib]; a list of visited marks is fresh for every search (visited_list_pool.hpp is modelled in VisitedModel.v).
* **VisitedModel.v**: include/index/graph/hnsw/visited_list_pool.hpp: the lists in which an HNSW construction notes the nodes a search has visited. Simplifications: memory holds as many lists as are asked for; the destructors (34, 77-83) are not modelled. A search is known by the order of its call of get_free_visited_list.
* **ClientModel.v**: python/src/alayalite/client.py: the client, its collections and indices, and the directories in which they are kept (collection.py, index.py, schema.py, and the recovery directory of python/include/index.hpp). A path text is given by the pieces between its slashes: "a/b" is ["a"; "b"], "/a" is [""; "a"], "" is [""]. Simplifications: the contents of a collection or index are a list of item numbers; the graph, vector and quantized files of an index are one file; the snapshot and log of the recovery directory are one file with the contents they give back (RecoveryModel.v); fitting fails only if there is a RocksDB already; JSON is not modelled, a schema file is good or bad; there are no symbolic links and no missing permissions; a directory exists if there is a file in it.
* **FastscanModel.v**: RaBitQ codes and lookup tables: include/utils/rabitq_utils/fastscan.hpp, lut.hpp and include/space/quant/rabitq.hpp, with the use of them in include/space/rabitq_space.hpp; and the same of the LASER index: include/index/graph/laser/quantization/fastscan_impl.hpp, laser/space/bitwise.hpp, laser/utils/scalar_quantize.hpp, laser/qg/qg_query.hpp and include/simd/laser_dispatch.hpp. Bytes and 16-bit words are numbers of type N, a vector register is the list of its bytes or of its 16-bit words, lowest first. Simplifications: floating-point numbers are exact (rationals); reads outside the given arrays give 0 (the sizes in the theorems exclude them).
* **PqModel.v**: Product quantization, /repo/include/index/graph/diskann/pq_table.hpp: training, encoding, distances by table lookup, files. The arithmetic on floats is a parameter: [arith] holds the operations the code uses, so what is proved for every [arith] holds for floats. Simplified: a row-major array of vectors given by the caller is the list of its rows; null pointers are not modelled; sizes are small enough for no product of sizes to overflow; the points that k-means++ and the reseeding of empty clusters take are arbitrary; a float is written to a file as the four bytes of its bits.
* **VBuildModel.v**: Construction of a Vamana graph: VamanaBuilder, include/index/graph/vamana/vamana_builder.hpp:24-563, as run by any number of OpenMP threads. The vectors are seen through [dist], the squared L2 distances as single- precision floats (l2_dist, 119-121). Every access to a neighbour list happens under that node's mutex (239-242, 302-315, 350-353, 460-463, 500-506, 538-541), so an execution is a sequence of such accesses; a [step] of a thread is one access together with the thread's own work up to the next one, and a schedule is a list of thread numbers. Node numbers are not wrapped to 32 bits. Progress output (358-438), timers and prefetching are left out.
* **ShardModel.v**: Splitting a data set into shards and building it shard by shard: compute_closest_centers (include/index/graph/vamana/kmeans_partition.hpp:78-174), shard_data_by_centroids (include/index/graph/vamana/shard_assigner.hpp:46-244), compute_medoid_streaming (include/index/graph/vamana/shard_merger.hpp:63-149), determine_num_parts_with_ram_budget (include/index/graph/vamana/budget_estimator.hpp:114-178), load_fbin and run_partition_merge (include/index/graph/vamana/build_dispatch.hpp:148-168, 250-404). Simplified: files are byte strings, paths and I/O errors other than short reads are left out; a float that is not a NaN is the integer that orders it among the floats (its bit pattern, negated for negative numbers); the distances of a vector to the centres are given, whatever the rounding of the matrix product; products of sizes do not wrap.
* **KmeansModel.v**: K-means for choosing the centres of shards: include/index/graph/vamana/kmeans_partition.hpp:190-472 (kmeanspp_init, lloyds_iter, run_lloyds, estimate_cluster_sizes, kmeans_train). Simplified: a row-major array of vectors is the list of its rows; random draws are arbitrary; the parallel loops write disjoint places and are sequential; the OpenMP reduction of the residual is a plain sum. In kmeanspp_init the rounding of the double sums is a parameter; the Lloyd iterations are in exact arithmetic. IEEE comparisons are assumed (the Release build has -Ofast, which does not promise them).
* **PqSearchModel.v**: The search on disk with product quantization: the PQ part of cached_beam_search (include/index/graph/diskann/beam_search.hpp:476-793) and scan_and_insert_neighbors (125-168). As in DiskSearchModel, a node's record is a function of its id, the sources of records and the order of completions are arbitrary functions, distances are integers ordered like the floats (NaN excluded), and statistics (but n_rerank_reads), timing, prefetching, page versions and failed reads are left out. [pq id] is pq.pq_distance(id, pq_table) for the query at hand; pq_distance_batch computes the same sums (pq_table.hpp; C74 is about them).
* **CoroSearchModel.v**: The coroutine searches of the update path: disk_greedy_search_async and pq_beam_search_async (include/index/graph/diskann/beam_search_async.hpp:71-243, 259-389). As in DiskSearchModel a node's record is a function of its id and the place it is found in is an arbitrary function; a coroutine owns its thread data, so what happens while it is suspended does not touch its state. A read that fails throws; failed reads, statistics and page versions are left out.
* **NodeCacheModel.v**: The cache of node records, include/index/graph/diskann/node_cache.hpp. A float is its 32 bits and files are byte strings, as in LayoutModel; null pointers, failing to open or write a file and running out of memory are left out. The overrides are sharded by node id modulo 64, each shard with its lock (389-413); an id has one shard, so they are one map here, and every operation is one step. Overrides are never changed once published (shared_ptr to const), so a reader keeps a complete record.
* **MirrorModel.v**: How the updatable disk index keeps its cache of node records in step with the disk: include/index/graph/diskann/diskann_index.hpp. A node's record on a page is its coordinates and neighbours. The update page cache is represented by what a read of it returns, the latest write (C42), in [pages], which the cache of coordinates agrees with; [disk] is what the device holds. Labels, slots, PQ codes and the other files are left out; an update is one step, as the updates are serialized and a record is published at once (see NodeCacheModel).
* **RotateModel.v**: The random rotations: include/utils/rabitq_utils/rotator.hpp (RaBitQ) and include/index/graph/laser/utils/rotator.hpp (LASER), with the portable fast Hadamard transforms. Floats are real numbers: rounding is left out. The AVX2 and AVX-512 versions, in inline assembly, and the matrix rotator, which leaves its work to Eigen, are not modelled.
* **QgModel.v**: Building the quantized graph of RaBitQ: include/index/graph/qg/qg_builder.hpp. Distances are the keys of PoolModel (no NaN). The estimates read from the codes, the cosine test and the random numbers are arbitrary inputs. The graph in the space is the ids of new_neighbors_ at the last update_nei (rabitq_space.hpp:238-243; the degrees are their numbers); the codes beside them are C72's. The set of visited nodes is an exact set (C24). The vertices of a parallel loop are independent and taken in order, but for the reverse edges, which are taken in any interleaving.
* **UringModel.v**: The reads through a shared io_uring: include/storage/io/uring_reactor.hpp. Any number of batches ("waves") are submitted, completed, reaped and waited for, interleaved in any way; the kernel may take part of what is submitted, refuse it, and complete it in any order with any result. A step is what is done under a lock and seen by no other thread before the lock is released, or one access to a frame. Accesses to the frame of a batch that has ended are [OutOfBounds]. in_flight_, read only by the destructor (103-118), is changed together with the ring.
* **ItemsModel.v**: Inserting, upserting, deleting and looking up items of an in-memory collection, and rebuilding it: python/include/index.hpp:323-405 and python/src/alayalite/collection.py:244-458, on the graph updates of UpdateModel.v and the scalar storage of StorageModel.v. Not modelled: the write-ahead log around the operations (RecoveryModel.v), errors of RocksDB other than refused writes of a row, and the normalization of vectors for the cosine metric.
* **LaserSearchModel.v**: The search of the LASER index on disk, include/index/graph/laser/qg/qg.hpp:400-720 (disk_search_qg and scan_neighbors), with its result buffer, include/index/graph/laser/utils/buffer.hpp:104-148. The search buffer is that of PoolModel.v. The search is one thread; the reads it submits are completed by the kernel whenever the kernel likes. What the kernel does is given to the model as a list of answers, one for each call of poll_events. Distances are keys of floats as in PoolModel.v: the exact ones (l2_sqr) and the estimated ones (FastscanModel.v) are data of the records, for they depend on the query and on the record read only.
* **LaserSegModel.v**: LASER segments of disk collections: importing the native files (include/index/disk/laser_segment_importer.hpp), opening the segment and searching it (include/index/disk/laser_segment_searcher.hpp). A directory is a list of names with regular files or something else; there are no symbolic links. Left out: the loading of the native index (QuantizedGraph and load_disk_index, here an answer [loads]), the printing and parsing of the one float (its text and whether std::stof accepts it are given), the logging, and the texts of the exceptions.
* **PcaFileModel.v**: * The resumable PCA step of [Index.fit] python/src/alayalite/laser/__init__.py:291-327 and 381, python/src/alayalite/laser/_idempotence.py:41-73 and 102-143, python/src/alayalite/laser/_pca.py:131-180. [Index.fit] reduces the vectors with a PCA and writes the transformed vectors to [<prefix>_pca_base.fbin]. The writer goes chunk by chunk and takes up an incomplete file where an earlier run has left it. A sidecar file [<prefix>_seed.txt] with the seed is written when everything is built and decides whether a later [fit] may keep what it finds. Simplified: only the files of the PCA step and the sidecar are kept; the vectors are given as a file, so that [fit] writes no raw file; sampling, fitting and transforming are one function [tr seed vectors row] giving the bytes of a transformed row; the parameter file is the seed and the vectors it was fitted on, or nothing when it is absent or not complete.

## Findings

Places where the code, as modelled, does not do what the property says.  Those
marked (T) are theorems (`_refuted` or part of a proved theorem); the others were
seen while reading and are outside a model or implied by a model's side condition.

* C03 (T) records appended after a torn tail are not replayed; C06 (T) an acknowledged operation is lost that way.
* C04 (T) `RecoveryManager::next_operation_id` goes back after the log is truncated.
* C05 (T) two snapshots in the same millisecond share an id and the second overwrites the current one in place.  Write errors of the log are not checked; snapshot components are not synced before CURRENT is switched (only process crashes are modelled).
* C08 (T) a line break in a field injects manifest lines; C44 the segment manifest writer does not validate texts either.
* C10 (T) a stored bool byte other than 0/1 is undefined behaviour; C11 (T) the single-field decoder reports the field with the empty name as absent; C58 a failed string read leaves the offset advanced by 8.
* C12 (T) NaN satisfies `>=` and `<=`; NOT with several parts negates only the first.
* C14 (T) the two zeros have different keys.  C15 (T) a lookup of "x" returns row "x_y"; fields "a" and "a_s_b" collide.  C16 (T) a range starting at +0.0 misses −0.0; a badly named field returns rows of another.  C17 (T) index and evaluation disagree on infinities, `> DBL_MAX`, signed zero, NaN, strings extended by `_`; metadata ids not below `data_num` write outside the bit set.  C19 (T) two (field, row) pairs can share a key.
* C24 (T) `get(0xFFFFFFFF)` holds on an empty hash set.
* C25 (T) the RaBitQ buffer refuses infinite distances even when empty; a pool of capacity 0 reads `data_[-1]`; ids from 2^31 on clash with the mark bit; `LinearPool::emplace_insert` does not compile.  C27 (T) the same id with two distances is kept twice.
* C28 (T) the disk search throws when the list is longer than the scratch slots; a deleted medoid takes a result place.  PQ mode with a beam wider than the page slots throws; completions left over from a failed read are not drained (not modelled).
* C29 (T) an infinite alpha repeats ids; an alpha between two levels of the ramp is treated as the level below.
* C30 (T) an id map with a repeated id drops later nodes; a truncated graph file invents a neighbour; gid 0xFFFFFFFF loops forever; an id in no shard makes the merged file unloadable.
* C32 (T) rows at infinite distance are dropped; brute force with an empty filter returns deleted rows; the materialized view returns NaN rows that fail the filter and misses −0.0 rows for `= 0.0`.
* C33 (T) removing twice, or inserting into a full space, makes the count wrong.  C34 (T) id −1 reads outside the bitmap.  C35 (T) an image with 2^58 words dereferences a null chunk.  C36 (T) the fresh-id counter wraps and hands out a live slot.
* C37 (T) a failed write leaks a slot; a failed reconnect raises although the label is live; `batch_insert` swallows exceptions and returns id 0 (not modelled).
* C39 (T) crash between `meta.bin` and `ids.bin`: index unloadable, or an old label with a new vector.  C40 (T) a label looked up after its slot is reused is paired with another vector's distance.
* C41 (T) a header whose file size wraps is accepted; a record length that wraps to 0 is divided by.  C42/C43 without the cache a failed write leaves the page in doubt; `read_neighbor_group_stride` reads without a version check (not modelled).
* C45 (T) duplicate segment ids are not rejected; from 49933 segments on the collection manifest is too large to load.  C46 (T) ids from 10^8 on are malformed, from 10^11 on they collide.
* C47 (T) a Vamana seed from 2^32 on, or a Vamana collection with IP/COS, makes the collection unopenable; a searcher that fails to open after publication blocks flushes until reopen; C48 (T) invalid pending rows block every later flush until reopen.
* C49 (T) NaN distances break the comparator of the flat searcher; under `-Ofast` the isnan checks fold away.
* C50 (T) an exception in a worker of the DiskANN batch search ends the process; the 32-bit counter wraps at 2^32−1 queries.
* C51 (T) two readers that upgrade both become exclusive (release build); a spurious failure of the weak CAS in `degrade_lock` closes the lock for good.  C52 (T) without workers nothing runs; `co_await schedule()` can be resumed twice at once; a task scheduled by another thread during shutdown never runs.  C53 (T) of two waiters only one is woken; a reset while tasks run makes `wait` return early.  C54 (T) a rejected hand-over loses waiter and object; `add()` does not wake a parked waiter.
* C55 (T) siblings of `$or` are OR-ed with it; an empty `$or` matches everything.  C56 (T) rows without item id, or an index that cannot update, make delete-by-filter loop forever or report a wrong count.
* C57 (T) graphs with isolated nodes are saved but cannot be loaded.
* C59 (T) with 64-bit tables the list size is cut to 32 bits and can drop below topk; with topk = 1 the list can be too small.
* C60 (T) overflow of max − min, or NaN, leads to an undefined conversion.  C62 (T) SQ4 distances read nibbles in the opposite order to the encoder and ignore the last dimension when it is odd.
* C63 (T) with 64-bit ids every nonempty result of filtered search is wrong.  C64 (T) the iterative hint can come up short although rows match.
* C65 (T) a removed vector is returned with distance FLT_MAX.  C66 (T) an index whose only vector was removed never finds later inserts; a new vector can be dropped from every full row and is unreachable; inserting and removing cut off vectors found before; zero-filled edges invent links to node 0; a node can become its own neighbour; a removed neighbour without edges makes the update raise after storing the vector and blocks all later inserts.
* C67 (T) nsg_builder.hpp:569 picks a vector that is already visited and links the unlinked vector's id the wrong way round, so unlinked vectors are never linked (the unit test AttachUnlinkedFallsBackToRandomAvailableNode enshrines this); line 523 counts the root only when it was visited before.  (T) With fewer vectors than ef_construction the initial search draws distinct ids for ever; the do-while at 597-602 never ends when every row is full, hence always with max_nbrs = 1, which the Python layer accepts.  (T) attaching adds a link that is already there, so a row can list the same vector twice and waste its slots.  (R) add_reverse_links uses the neighbour's id as its distance (411); NNDescent copies 64 candidates from pools that may hold fewer.
* C69 (T) with the default R = 32 the origin and 49 unit vectors give an index in which two vectors are in no row of any layer, so no search can return them: the pruning rule drops the link back to a vector and nothing keeps one.  (T) R = 2 or 3 (accepted by the Python layer) makes mult_ infinite and the level conversion undefined; R = 1 reads `selected_neighbors.back()` of an empty vector at the second insertion; an empty collection adds vector 0 without room.  (R) `enterpoint_node_` is read without a lock (hnswlib.hpp add_point) while another insertion may change it.
* C71 (T) collection and index names go into os.path.join unchecked: `delete_collection(name, delete_on_disk=True)` with an absolute name, ".." or "" removes directories outside the client's own or all its collections (the REST routes app/routers pass names through).  (T) Collections whose `rocksdb_path` lie in one directory (given so, or the default `./RocksDB/<name>` without a client directory) share `recovery` and `schema.json`: reopened, one has the other's contents.  (T) A name with a slash is saved and never found again; one bad schema.json makes the whole client unopenable.  (R) saving a collection without items raises AttributeError.
* C72 (T) fastscan.hpp accumulates lookup bytes in 16 bits: above 1028 padded dimensions the sum can wrap (1088 dimensions: a neighbour equal to the query is estimated at over 4000), and from about 2048 dimensions it does for typical queries.  (T) A zero query makes the width of the table 0 and converts NaN to uint8_t.  For inner products the estimates are one minus the inner product while exact distances are minus the inner product.
* C73 (T) scalar_quantize.hpp adds 0.5 before lround, so the largest value is 64, not 63; four of them together wrap to 0 in the byte table (qg_scanner pack_lut), where the comment in the code only expects a bias.  (T) laser_dispatch.hpp converts the 16-bit sums as signed: sums from 2^15 on, possible above 512 dimensions, become negative.
* C74, C75 (T) pq_table.hpp: if every codeword of a chunk is at an infinite (or NaN) distance the code is 0, however bad; pq_distance reads outside the codes for a point id past the end (pq_symmetric_distance checks).
* C77 (T) vamana_builder.hpp: 66 equal vectors with the default parameters leave all but two unreachable (the cleanup cuts the entry point's list to one neighbour, since equal vectors occlude each other); seven distinct vectors with R = 4 leave two unreachable; with more than 2048 vectors and two threads `graph_[node] = pruned_list` (460-463) overwrites links back that another thread added between the search and the store, and that vector is never reachable again.
* C78 (T) vamana_builder.hpp:163 says "Deterministic given the data", but equal distances in different blocks of 65536 vectors make the entry point depend on which thread enters the critical section first.
* C79 (T) kmeans_partition.hpp:156: when the distances of a vector to all centroids overflow to infinity, its nearest centroids are 0 and 0: shard_assigner.hpp writes it twice to shard 0 (the merge then throws or mixes up rows, C30) and the post-condition `total_written == N * k_base` holds; a NaN distance takes the last place and gives it to whatever comes after.  (T) `block_size` 0 loops for ever.  (R) `create_directories(prefix.parent_path())` throws for a prefix without a directory.
* C80 (T) build_dispatch.hpp:361 loads every shard with load_fbin, which throws on a count of 0: a shard that is among the two nearest of no vector (equal or zeroed centroids, for instance after an empty cluster) makes the whole partitioned build fail.  (R) gen_random_slice does not check its reads: a truncated file repeats the last vector in the sample.
* C82 (T) kmeans_partition.hpp:249: the re-draw loop has no bound: a NaN coordinate in one sampled vector, or vectors so far apart that squared distances overflow, make the sum infinite or NaN, every dart then lands on the last point, and the third pivot (every partitioned build asks for three or more) is drawn for ever.
* C83 (T) kmeans_partition.hpp:323-330: an empty cluster's centre is left at zero: for a sample of equal vectors all centres but the first become the zero vector, the third shard gets no vector and the partitioned build throws (C80), for every seed and number of parts.
* C84 (T) beam_search.hpp:618-621 says that the order of completions changes only the order of ties: an example with distinct distances returns different nodes.  (T) Lines 545-551 promise results that do not depend on other searches: a page found in the page cache counts as no read, so the batch is larger and other nodes are expanded; search_fill_page fills that cache during searches.  (T) a rerank_count below top_k cuts the results; a beam_width above the page slots (at most 1024, diskann_index.hpp:373-374) makes asynchronous searches throw out_of_range.  The comment at 470-475 is too cautious: results never carry quantized distances, and reranking never reads.
* C28 (T) beam_search.hpp:35-43 and 180-182 say that the pipelined search differs from the deterministic one only in the order of ties: with six nodes at distinct distances the order of completions decides which node is returned.
* C85 (T) beam_search_async.hpp:250-251 promises the deterministic search's results when nothing is cached: a beam wider than the page slots makes the deterministic search read smaller batches, the coroutine does not, and they return different nodes.
* C86 (T) node_cache.hpp:256 takes a node length of 0 for "not set": a cache_nodes.bin with node length 0 and a count above 0 loads without any record, configure_geometry accepts it, and the first lookup of a listed node reads outside node_data_.
* C87 (T) diskann_index.hpp:1009-1020: flush_pages is documented as a durability point, but it does not write cache_nodes.bin: after reopening, searches (and mirror_neighbors_to_cache) use the old coordinates and neighbours of every node in the hot cache, the medoid first, while the pages on disk have the new ones; update_node (1006) also writes pages without the cache files.
* C88 (T) rotator.hpp:343-380: choose_rotator checks that an explicit padded_dim is a multiple of 64 but not that it is at least dim; rotate then copies dim floats into a buffer of padded_dim floats.
* C89 (T) qg_builder.hpp:501-526: random_init draws until it has 32 different other vectors; with 32 vectors or fewer it never ends, and PyIndex.fit (python/include/index.hpp:599-612) does not check, so fitting a RaBitQ index with few vectors hangs.
* C89 (R) qg_builder.hpp:176-200: the range-for over new_neighbors_[data_id] runs without the lock of data_id while other threads emplace_back to the same vector under it: a data race on its end (and on its elements, if the vector grows).
* C90 (N) io_uring_engine.hpp (not used by the product): after a failed io_uring_submit in submit_chunk or submit_async_read the prepared SQEs stay in the ring and are submitted by the next call, with pointers to requests that are gone (submit_async_read has deleted the context); the reactor of C90 avoids exactly this by poisoning itself.
* C91 (T) python/include/index.hpp:379-405: upserting an item of a full index deletes it and returns -1 without an exception (the rollback runs only on exceptions); removed slots are not reused, so every upsert uses one up. Collection.insert and Collection.upsert (collection.py:290, 313) ignore the returned id: inserts into a full index are dropped silently.
* C91 (T) index.hpp:379-405 with collection.py:292, 315: the ef of incremental inserts is fixed to 100 and search_solo_updated throws when it is below the degree, so with max_nbrs above 100 every later insert raises, and every upsert of an existing item deletes it, because the rollback searches with the same ef.
* C91 (R) index.hpp:395-403: when the relinking of an upsert fails (a removed node without recorded neighbours) the new row is already stored and the rollback is refused as a duplicate: the exception reports a failure although the item was replaced.
* C91 (T) collection.py:405-458: reindex drops rows with an empty item id (they look deleted); it closes the old index and deletes its directory before building the new one, so a failing fit loses the collection.
* C92 (T) qg.hpp:653-667: after the main loop the nodes still in the pipeline are processed and their neighbours put into the search buffer, but the main loop is not entered again: up to half a beam of nodes is read and not expanded. A search with an ef larger than the index misses the closest node of a connected graph (laser_exhaustive_refuted); whether it does depends on the order in which reads complete.
* C92 (T) qg.hpp:532-543 (and execute_io, get_events): the result of a read (AlignedReadEvent::result) is never looked at. After a failed or short read the slot's old content is processed as the node's record: a node of an earlier query, or zeros.
* C92 (T) qg.hpp:558-580, 313-343: with beam_width 0 the search spins for ever. DiskCollection checks the width; set_params of the LASER bindings (python/src/alayalite/laser/_bindings.hpp:86) and LaserSegmentSearcher::search (laser_segment_searcher.hpp:309) do not. Widths above 1024 throw once a batch is that large.
* C92 (T) buffer.hpp:125: copy_results copies as many ids as were asked for; when fewer nodes were reached the rest are 0, a valid id, so id 0 is returned twice or without having been found.
* C92 (R) qg.hpp:400-690: when the search throws (submit_reqs, an unexpected completion) the workspace is not put back into the queue, with reads still in flight into its slots; once all are lost every later search waits for ever.
* C93 (T) laser_segment_importer.hpp:205-225, 250-258, 283-285 against laser_segment_searcher.hpp:71-82, 194-198, 143-168: the importer accepts R = 0, 2^32 points or more, and empty optional files; the searcher refuses all three. Such an import returns, and the published segment can never be opened (laser_import_opens_refuted).
* C93 (T) laser_segment_searcher.hpp:324-327 with qg.hpp:313-320: set_params destroys the workspace before it opens the index file. If the opening fails (descriptors exhausted) the search throws and last_set_params_ keeps the old triple; the next search with the old parameters skips set_params and waits for ever for a workspace, holding search_mutex_, so that all later searches hang too (laser_stale_params_refuted).
* C93 (T) laser_segment_searcher.hpp:324-331: after a search that throws in the engine, which does not give its workspace back (C92), the next search with the same parameters waits for ever (laser_thrown_search_refuted).
* C93 (T) laser_segment_importer.hpp:162-175, 344: the copied native files are never synced, only the label file and the manifest are; after a loss of power a published segment may have native files of any content and never open again (laser_power_loss_refuted).
* C93 (R) laser_segment_importer.hpp:82-86 against laser_segment_searcher.hpp:94: a denormal search_dram_budget_gb is printed as text that std::stof rejects as out of range; the segment cannot be opened.
* C94 (T) _pca.py:149-168 with __init__.py:300-327: when the seed sidecar does not match, fit rebuilds, but pca_transform_and_save resumes from the base file of the old seed. From 100000 vectors on, every whole chunk stays transformed with the old PCA while <prefix>_pca.bin and the sidecar are those of the new seed; queries are rotated with the new one (fit_pca_seed_refuted). skip_existing=False does not help.
* C94 (T) __init__.py:311-316 with _idempotence.py:41-73: other vectors of the same shape with the same seed are ignored; fit returns an index of the earlier vectors (fit_pca_vectors_refuted).
* C94 (T) _pca.py:149-180: a base file with at least as many whole chunks as the new vectors need is left with its old header and rows, and no new row is written (fit_pca_fewer_refuted); qg_builder.hpp:200-228 ignores the number in the header and builds the index from these rows.

## Print Assumptions, theorem by theorem

Axioms that occur, all of the standard library:

* A1 = `ClassicalDedekindReals.sig_forall_dec`
* A2 = `ClassicalDedekindReals.sig_not_dec`
* A3 = `Classical_Prop.classic`
* A4 = `FunctionalExtensionality.functional_extensionality_dep`

"closed" = "Closed under the global context".

* **WalProps.v** closed: `wal_replay_exact`, `wal_durable_iff`, `wal_torn_tail`, `wal_append_after_torn_refuted`, `wal_append_after_boundary_partial`. 
* **RecoveryProps.v** closed: `restart_op_ids_fresh`, `next_operation_id_refuted`, `publish_crash_atomic`, `publish_same_name_refuted`, `recovery_history_partial`, `recovery_history_refuted`. 
* **SnapshotManifestProps.v** closed: `manifest_round_trip`, `current_round_trip`, `manifest_unknown_keys_ignored`, `manifest_without_id_rejected`, `manifest_injection_refuted`, `manifest_no_injection_partial`. 
* **ScalarDataProps.v** closed: `scalar_data_round_trip`, `serialized_size_exact`, `scalar_data_decoders_in_bounds`, `scalar_data_invalid_bool_refuted`, `selected_metadata_agrees`, `single_metadata_agrees_partial`, `single_metadata_empty_name_refuted`. 
* **BinaryIoProps.v** closed: `binary_io_round_trip`, `binary_io_reads_in_bounds`, `binary_io_truncated`, `binary_io_failed_read_moves_offset_refuted`, `insert_payload_round_trip`, `remove_item_payload_round_trip`, `remove_internal_payload_round_trip`. 
* **FilterProps.v** closed: `filter_evaluate_partial`, `condition_evaluate`, `filter_nan_refuted`, `filter_not_many_refuted`. 
* **IndexEncodingProps.v** closed: `encode_int64_order`, `encode_double_order`, `encode_double_zeros_differ`. 
* **StorageProps.v** closed: `storage_refines_table`, `item_ids_unique`, `secondary_index_exact`, `secondary_index_one_entry_partial`, `secondary_index_one_entry_refuted`, `row_count_exact`, `row_keys`, `other_keys_are_not_row_keys`, `scan_exact`, `equality_lookup_partial`, `equality_lookup_refuted`, `int_range_lookup_partial`, `double_range_lookup_partial`, `range_lookup_refuted`. 
* **MatcherProps.v** closed: `matcher_exact_partial`, `matcher_exact_refuted`. 
* **BitsetProps.v** closed: `dynamic_bitset_is_a_set`, `epoch_set_is_a_set`, `sparse_bitset_is_a_set`, `hierarchical_bitset_is_a_set`, `visited_bitset_is_a_set`, `hash_set_is_a_set_partial`, `hash_set_constructor`, `hash_set_refuted`. 
* **PoolProps.v** closed: `linear_pool_keeps_closest`, `linear_pool_refuses_only_far`, `linear_pool_never_skips`, `search_buffer_keeps_closest_partial`, `search_buffer_refuses_only_far_partial`, `search_buffer_never_skips`, `search_buffer_cleared_partial`, `search_buffer_refuses_infinity_refuted`, `laser_buffer_keeps_closest`, `laser_buffer_never_skips`. 
* **NpqProps.v** closed: `frontier_holds_smallest`, `frontier_ids_distinct`, `frontier_order_independent`, `frontier_eviction_reported`, `frontier_never_skips`, `frontier_duplicate_id_refuted`. 
* **PruneProps.v** closed: `prune_terminates`, `prune_result_valid`, `prune_keeps_closest`, `prune_drops_only_occluded`, `prune_kept_not_occluded`, `prune_infinite_alpha_refuted`. 
* **TombProps.v** closed: `tombstones_are_set`, `tombstones_round_trip`, `tombstone_set_beyond`, `tombstone_damaged_file_refuted`, `slot_alloc_not_in_use`, `slot_visibility`, `slot_reuse`, `slot_save_load`, `slot_wraparound_refuted`. 
* **StoreProps.v** closed: `storage_is_table`, `storage_slots_distinct`, `storage_bad_id_refuted`, `raw_space_available_partial`, `sq8_space_available_partial`, `space_double_remove_refuted`, `raw_space_full_insert_refuted`. 
* **SearchProps.v** closed: `vamana_search_ranked`, `vamana_search_expands_once`, `vamana_search_settled`, `vamana_search_exact`, `vamana_search_rejects`, `solo_search_ranked`, `solo_search_overlay`, `solo_search_rejects`, `solo_search_ef_zero_refuted`. 
* **DiskSearchProps.v** closed: `disk_search_ranked`, `disk_search_expands_once`, `disk_search_settled`, `disk_search_exact`, `disk_search_same`, `disk_search_textbook`, `textbook_unique`, `disk_search_deleted_medoid_refuted`, `disk_search_scratch_refuted`, `disk_search_refuted_completion_order`. 
* **RankProps.v** closed: `rerank_exact`, `brute_force_exact_partial`, `view_brute_force_exact_partial`, `brute_force_infinite_refuted`, `brute_force_deleted_refuted`, `view_nan_zero_refuted`. 
* **GraphFileProps.v** closed: `graph_file_round_trip_partial`, `graph_file_loaded_valid`, `graph_file_canonical`, `graph_file_isolated_refuted`, `merge_shards_exact`, `merged_graph_loads`, `merge_repeated_id_refuted`, `merge_truncated_refuted`, `merged_gap_refuted`. 
* **LayoutProps.v** closed: `layout_disjoint`, `layout_sectors`, `layout_read_back`, `layout_written_checked`, `accepted_header_safe_partial`, `accepted_header_refuted`, `header_division_refuted`. 
* **IndexProps.v** closed: `build_labels`, `labels_are_a_map_partial`, `live_count_is_labels`, `operations_answer`, `live_count_refuted`, `failed_insert_in_place_refuted`, `batch_insert_silent_refuted`, `flush_load`, `flush_crash_removals_partial`, `flush_crash_refuted`, `flush_crash_mixed_refuted`, `search_pair_partial`, `search_pair_refuted`. 
* **CacheProps.v** closed: `cache_safe`, `reads_latest`, `reads_latest_uncached`, `reads_answer`, `no_error_no_throw`, `cache_size`, `flush_reaches_disk`, `fill_latest`, `cache_never_stale`. 
* **SegManifestProps.v** closed: `segment_round_trip`, `segment_loaded_good`, `segment_reload`, `segment_round_trip_refuted`, `collection_round_trip`, `collection_loaded_good`, `collection_reload`, `collection_distinct_refuted`, `segment_id_partial`, `segment_id_distinct_partial`, `segment_id_refuted`, `segment_id_distinct_refuted`, `collection_long_id_refuted`, `collection_size_refuted`. 
* **DiskCollProps.v** closed: `collection_history`, `collection_reopens`, `collection_flushes`, `vamana_reopen_refuted`, `vamana_metric_refuted`, `flush_after_failure_refuted`, `collection_too_long`, `collection_reopen_refuted`, `rejected_batch_refuted`, `rejected_batch_blocks`, `rejected_batch_partial`. 
* **CollSearchProps.v** closed: `merge_exact`, `best_determined`, `search_flat_partial`, `search_flat_same_partial`, `search_flat_refuted`. 
* **BatchProps.v** closed: `batch_exact`, `batch_raises`, `batch_ends`, `diskann_raises_terminates`, `diskann_raises_refuted`, `diskann_twice_refuted`. 
* **LockProps.v** closed: `spin_excludes`, `spin_available`, `shared_excludes`, `shared_excludes_asserts`, `shared_excludes_partial`, `shared_upgrade_refuted`, `shared_degrade_refuted`. 
* **SchedProps.v** closed: `scheduler_exact_partial`, `scheduler_progress`, `scheduler_no_worker_refuted`, `scheduler_await_refuted`, `scheduler_late_refuted`. 
* **TPoolProps.v** closed: `pool_once`, `pool_wait`, `pool_destroyed`, `pool_no_hang`, `pool_two_waiters_refuted`, `pool_reset_refuted`, `pool_no_thread_refuted`. 
* **GateProps.v** closed: `gate_exclusive`, `gate_fifo`, `gate_no_lost_waiter_partial`, `gate_rejected_refuted`, `gate_add_refuted`. 
* **DictProps.v** closed: `dict_filter_built`, `dict_filter_partial`, `dict_or_sibling_refuted`, `dict_or_empty_refuted`. 
* **DeleteProps.v** closed: `delete_by_filter_partial`, `delete_by_filter_ends`, `delete_by_filter_runs`, `delete_by_filter_refuted`, `delete_not_updatable_refuted`. 
* **QuantProps.v** Uses A1, A2, A3, A4: `quantize_in_range_partial`, `quantize_monotone`, `quantize_ends`, `quantize_accurate`, `fit_exact`, `encode8_correct`, `encode4_correct`, `quantize_width_refuted`, `quantize_nan_refuted`. 
* **SqDistProps.v** Uses A1, A2, A3, A4: `sq8_l2_accurate`, `sq8_ip_accurate`, `sq4_ip_accurate_partial`, `decoded_accurate`, `sq4_l2_accurate_partial`, `sq4_order_refuted`, `sq4_last_dimension_refuted`, `sq4_ip_refuted`. 
* **EffortProps.v** closed: `validate_exact`, `floor_log2_exact`, `ceil_log2_exact`, `ceil_div_exact_partial`, `round_up_exact_partial`, `round_up_pow2_exact_partial`, `is_power_of_two_exact`, `ceil_div_refuted`. Uses A1, A2, A3, A4: `effort_valid_partial`, `effort_enough`, `view_effort_valid_partial`, `effort_64_refuted`, `effort_enough_one_refuted`, `adjust_alone_refuted`. 
* **ResultIdsProps.v** closed: `narrow_ids_partial`, `narrow_ids_recounted_partial`, `wide_ids_refuted`. 
* **HybridProps.v** Uses A1, A2, A3, A4: `filtered_search_right_partial`, `filtered_search_full_partial`, `filtered_search_iterative_partial`, `unfiltered_search_found`, `iterative_misses_refuted`. 
* **UpdateProps.v** closed: `updates_never_fail`, `insert_answers`, `insert_succeeds`, `remove_answers`, `insert_relinks`, `insert_links_back`, `failed_relinking_blocks_inserts`, `search_after_updates`, `removed_after_live`, `inserted_found_refuted`, `inserted_linked_refuted`, `found_stays_found_refuted`, `relinked_edges_refuted`, `own_neighbour_refuted`, `insert_succeeds_refuted`, `removed_not_returned_refuted`. 
* **NsgProps.v** closed: `nsg_build_valid`, `nsg_search_sorted`, `nsg_entry_best`, `nsg_prune_distinct`, `nsg_distinct_refuted`, `nsg_growth_keeps_links_partial`, `nsg_growth_links_nothing`, `nsg_all_reachable_refuted`, `nsg_small_collection_never_builds`, `nsg_full_graph_never_returns`, `nsg_degree_one_never_builds`. 
* **FusionProps.v** closed: `fusion_unites`, `fusion_distinct`, `fusion_keeps_reachable`, `fusion_entry_points`. 
* **HnswProps.v** closed: `hnsw_build_ok`, `hnsw_small_fully_linked`, `hnsw_index_searchable`, `hnsw_all_reachable_refuted`, `hnsw_few_neighbours_undefined`, `hnsw_no_vectors_undefined`. 
* **VisitedProps.v** closed: `visited_lists_exact`. 
* **ClientProps.v** closed: `client_refines_partial`, `client_names_unique`, `client_delete_stays_inside_refuted`, `client_databases_apart_refuted`, `client_saved_comes_back_refuted`, `client_opens_refuted`. 
* **FastscanProps.v** closed: `fastscan_sums`, `fastscan_same`, `fastscan_table`, `fastscan_estimate_partial`, `fastscan_distance_partial`, `fastscan_inner_partial`, `fastscan_estimate_refuted`, `fastscan_zero_query_undefined`, `laser_blocks`, `laser_query_values`, `laser_scan_partial`, `laser_scan_refuted`, `laser_wide_refuted`. 
* **PqProps.v** closed: `pq_distance_exact`, `pq_symmetric_exact`, `pq_encode_best`, `pq_encode_overflow_refuted`, `pq_lossless`, `pq_training_improves`, `pq_batch_same`, `pq_distance_unchecked`, `pq_symmetric_checks`, `pq_train_any_order`, `pq_train_checks`, `pq_encode_any_order`, `pq_encode_one`, `pq_save_load`, `pq_load_checks`. 
* **VBuildProps.v** closed: `vbuild_linking_safe`, `vbuild_linking_ends`, `vbuild_cleanup_safe`, `vbuild_well_formed`, `vbuild_finishes`, `vbuild_reachable_refuted_equal_vectors`, `vbuild_reachable_refuted_distinct_vectors`, `vbuild_reachable_refuted_race`, `entry_point_nearest`, `entry_point_in_range`, `entry_point_first_small`, `entry_point_unique`, `entry_point_deterministic_refuted`. Uses A1, A2, A3, A4: `vbuild_reachable_partial`. 
* **ShardProps.v** closed: `shard_assignment_exact`, `nearest_centres_unique`, `shard_replication`, `shard_assignment_safe`, `shard_input_complete`, `shard_replication_refuted_infinite`, `shard_nearest_refuted_nan`, `shard_zero_block_refuted`, `partitioned_build_exact`, `partitioned_build_refuted_empty_shard`, `medoid_streaming_nearest`, `medoid_streaming_in_range`, `num_parts_least`. 
* **KmeansProps.v** closed: `kmeanspp_spread`, `kmeanspp_distinct`, `kmeanspp_refuted_not_finite`, `lloyd_residual_descends`, `lloyd_centres`, `run_lloyds_exact`, `kmeans_train_improves`, `cluster_sizes_exact`, `kmeans_refuted_equal_vectors`. 
* **PqSearchProps.v** closed: `pq_search_ranked`, `pq_search_reads_once`, `pq_search_two_stages`, `pq_search_exact`, `pq_search_same`, `pq_search_refuted_rerank_count`, `pq_search_refuted_wide_beam`, `pq_search_refuted_completion_order`, `pq_search_refuted_deterministic`. 
* **CoroSearchProps.v** closed: `coro_search_textbook`, `coro_search_ranked`, `coro_search_same`, `coro_pq_ranked`, `coro_pq_reads_once`, `coro_pq_two_stages`, `coro_pq_same`, `coro_pq_rerank_throws`, `coro_pq_refuted_page_slots`. 
* **NodeCacheProps.v** closed: `node_cache_closest`, `node_cache_refines`, `node_cache_matches_disk`, `node_cache_load_checked`, `node_cache_refuted_zero_length`. 
* **MirrorProps.v** closed: `search_reads_latest_partial`, `search_reads_refuted_flush_pages`. 
* **RotateProps.v** closed: `rabitq_rotator_accepts`. Uses A1: `fht_is_walsh_hadamard`. Uses A1, A2, A4: `rabitq_rotation_isometry`, `rabitq_rotation_refuted_small_padding`, `laser_rotation_isometry`, `laser_rotator_accepts`. 
* **QgProps.v** closed: `qg_regular`, `qg_builds`, `qg_refuted_few_vectors`, `qg_prune_diverse`. 
* **UringProps.v** closed: `uring_no_dangling`, `uring_batch_result`, `uring_ended_quiet`, `uring_throws_only_refused`, `uring_batches_end`. 
* **ItemsProps.v** closed: `items_in_step`, `get_exact`, `insert_puts`, `insert_new_succeeds`, `delete_removes`, `upsert_puts`, `upsert_atomic_partial`, `upsert_refuted_full`, `upsert_refuted_narrow`, `insert_refuted_full`, `reindex_keeps`, `reindex_refuted_unnamed`. 
* **LaserSearchProps.v** closed: `laser_search_right`, `laser_search_ends`, `laser_exhaustive_partial`, `laser_follows_partial`, `best_medoid_closest`, `laser_width0_refuted`, `laser_exhaustive_refuted`, `laser_order_refuted`, `laser_failed_read_refuted`, `laser_fill_refuted`. 
* **LaserSegProps.v** closed: `laser_import_whole`, `laser_import_returns`, `laser_import_checks`, `laser_import_opens_partial`, `laser_open_sound`, `laser_params_in_force`, `laser_params_calls`, `laser_segment_answers`, `laser_import_opens_refuted`, `laser_power_loss_refuted`, `laser_stale_params_refuted`, `laser_thrown_search_refuted`. 
* **PcaFileProps.v** closed: `fit_pca_resumes_partial`, `fit_pca_short_partial`, `fit_pca_readable`, `fit_pca_killed_untrusted`, `fit_pca_seed_refuted`, `fit_pca_vectors_refuted`, `fit_pca_fewer_refuted`. 
