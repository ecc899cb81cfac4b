{"id": "C01", "title": "WAL replay returns exactly the committed operations", "statement": "If a write-ahead log file was produced by any sequence of append_prepare / append_commit calls, then replayable_records(applied_through) returns exactly the operations that were prepared and then committed with the same kind and whose id is greater than applied_through, each with the payload of its last prepare, in increasing id order, and reports the largest operation id in the log.", "quantifier": "every sequence of prepare/commit calls with arbitrary ids, kinds and payload bytes, and every applied_through", "why_tests_cant": "payload bytes are arbitrary (they may contain frame magics) and frame sequences are unbounded; a test tries a handful", "anchors": ["include/recovery/write_ahead_log.hpp: append_prepare, append_commit, append_frame, replayable_records, read_frame_header, payload_size_is_plausible"]}
{"id": "C02", "title": "WAL crash safety: any torn tail loses at most the torn frame", "statement": "If the log file is cut at any byte position (a crash during a write), replay neither throws nor invents anything: it returns exactly what it would return for the longest whole number of frames that fits in the cut file; in particular every operation whose commit frame is entirely inside the cut is replayed and no operation without a complete commit frame is.", "quantifier": "every log and every byte offset at which the file may be cut", "why_tests_cant": "the crash offset ranges over all bytes of all logs", "anchors": ["include/recovery/write_ahead_log.hpp: replayable_records, read_frame_header, payload_size_is_plausible"]}
{"id": "C03", "title": "Operations committed after recovering from a torn log survive the next recovery", "statement": "If a log with a torn last frame is reopened and further operations are prepared and committed successfully, the next replay returns those operations.", "quantifier": "every log, every cut position, every later sequence of committed operations", "why_tests_cant": "needs the combination crash-in-the-middle-of-a-frame, reopen, append, reopen; unit tests cut logs but do not append afterwards", "anchors": ["include/recovery/write_ahead_log.hpp: ensure_stream_open, append_frame, replayable_records", "python/include/index.hpp: load"]}
{"id": "C04", "title": "Operation ids never repeat across restarts", "statement": "The first operation id handed out after opening an index directory is greater than the id of every operation that was applied before, whether recorded in the current snapshot or in the log.", "quantifier": "every manifest and every log content, including the empty log left by a checkpoint", "why_tests_cant": "only visible when a restart follows a checkpoint that truncated the log, for arbitrary id values", "anchors": ["include/recovery/recovery_manager.hpp: next_operation_id", "include/recovery/write_ahead_log.hpp: replayable_records", "python/include/index.hpp: initialize_recovery"]}
{"id": "C05", "title": "Publishing a snapshot is atomic with respect to crashes", "statement": "If the process crashes at any point while a snapshot is being published, then on restart the current snapshot together with the log determines either the state before or the state after the checkpoint with respect to which operations are covered: no committed operation is lost, and the snapshot that CURRENT names is completely written.", "quantifier": "every prior directory state, every committed history and every crash point between the individual file system steps", "why_tests_cant": "crash points between file system operations cannot be enumerated by unit tests without fault injection", "anchors": ["include/recovery/recovery_manager.hpp: publish_snapshot, write_text_atomically, current_snapshot, remove_old_snapshots"]}
{"id": "C06", "title": "Committed operations survive any crash; uncommitted ones do not resurrect", "statement": "For an index with recovery enabled, after any history of insert/upsert/remove calls, checkpoints and crashes at arbitrary points, reopening the index gives the contents obtained by applying to the last published snapshot exactly the committed operations after it, in order; so every acknowledged operation is present, and an operation whose call never returned is either wholly present or wholly absent.", "quantifier": "every history of operations, checkpoints and crashes (crash anywhere inside an operation)", "why_tests_cant": "histories and crash points are unbounded", "anchors": ["python/include/index.hpp: insert, upsert, remove, checkpoint_recovery_snapshot, load, replay_recovery_log", "include/recovery/recovery_manager.hpp", "include/recovery/write_ahead_log.hpp"]}
{"id": "C07", "title": "Snapshot manifest round trip", "statement": "Parsing the text of a serialized snapshot manifest gives back the same manifest, for all field values that contain no line break and do not end in a carriage return and with a non-empty snapshot id.", "quantifier": "every manifest satisfying the stated condition", "why_tests_cant": "field contents (containing '=', spaces, control bytes) and numbers range over all values", "anchors": ["include/recovery/snapshot_manifest.hpp: SnapshotManifest::serialize, deserialize, parse_unsigned"]}
{"id": "C08", "title": "Snapshot manifest fields cannot be injected", "statement": "Whatever the text of the reason or file-name fields, parsing a serialized manifest never yields a snapshot id or applied-through operation id different from the one serialized.", "quantifier": "every manifest with arbitrary strings", "why_tests_cant": "an adversarial string containing a newline is needed; example-based tests use tame strings", "anchors": ["include/recovery/snapshot_manifest.hpp: serialize, deserialize"]}
{"id": "C09", "title": "Scalar data round trip", "statement": "Deserializing the bytes produced by serializing a record (item id, document, metadata) gives the same record back and consumes exactly serialized_size bytes, whenever every string and the number of metadata entries fit in 32 bits.", "quantifier": "every record: arbitrary bytes in strings, arbitrary metadata maps in any iteration order, all int64 and all double bit patterns", "why_tests_cant": "strings, maps and 64-bit values range over unbounded or huge domains", "anchors": ["include/utils/scalar_data.hpp: ScalarData::serialize, deserialize, serialized_size"]}
{"id": "C10", "title": "Scalar data decoding never reads outside the buffer", "statement": "Decoding an arbitrary byte buffer as scalar data (whole record, selected metadata fields, or one field) never reads a byte at or past the end of the buffer and always terminates: it returns a value or reports corruption.", "quantifier": "every byte string of every length, every set of requested fields", "why_tests_cant": "adversarial lengths in the middle of the buffer; 2^(8n) buffers", "anchors": ["include/utils/scalar_data.hpp: deserialize, deserialize_selected_metadata, deserialize_single_metadata_value, skip_*, deserialize_* with size"]}
{"id": "C11", "title": "Partial metadata decoding agrees with full decoding", "statement": "For bytes produced by serializing a record, decoding only a set of requested metadata fields returns exactly the requested fields that the record has with the record's values, and decoding a single field returns its value or nothing if absent.", "quantifier": "every record and every set of requested field names", "why_tests_cant": "the early-exit and skipping paths depend on the order of fields and the mix of value types", "anchors": ["include/utils/scalar_data.hpp: deserialize_selected_metadata, deserialize_single_metadata_value"]}
{"id": "C12", "title": "Filter evaluation means what the filter says", "statement": "Evaluating a filter on a record is the boolean combination it denotes: an empty filter accepts everything, AND/OR/NOT combine conditions and sub-filters, a comparison holds exactly when the field is present, has the same type as the operand and stands in that relation to it.", "quantifier": "every filter tree (any depth and width), every metadata map", "why_tests_cant": "filter trees and metadata are unbounded; corner values such as NaN, missing fields and mixed types are rarely sampled", "anchors": ["include/utils/metadata_filter.hpp: FilterCondition::evaluate, compare_values, contains_string, MetadataFilter::evaluate"]}
{"id": "C13", "title": "Integer index keys preserve order", "statement": "The text encoding of 64-bit integers used in index keys is injective, has fixed length, decodes to the same integer, and compares lexicographically exactly as the integers compare numerically.", "quantifier": "all pairs of 64-bit integers", "why_tests_cant": "2^128 pairs; sign boundary", "anchors": ["include/utils/index_encoding.hpp: encode_int64, decode_int64"]}
{"id": "C14", "title": "Floating-point index keys preserve order", "statement": "The text encoding of doubles used in index keys decodes to the same bit pattern and, for non-NaN values other than a pair of zeros of different sign, compares lexicographically exactly as the numbers compare, including subnormals and infinities.", "quantifier": "all pairs of non-NaN doubles", "why_tests_cant": "2^128 pairs; subnormals, infinities and sign boundary", "anchors": ["include/utils/index_encoding.hpp: encode_double, decode_double"]}
{"id": "C15", "title": "Equality lookups through the metadata index return exactly the matching rows", "statement": "Looking up a field/value pair through the secondary index returns exactly the ids of the stored rows whose metadata holds that value for that field.", "quantifier": "every history of inserts, updates and removes, every field name and value", "why_tests_cant": "the answer depends on how the separator character occurs in other rows' field names and values", "anchors": ["include/storage/rocksdb_storage.hpp: get_ids_by_field_value, add_field_indexes, remove_field_indexes", "include/utils/index_encoding.hpp: make_field_index_key, make_field_index_prefix, extract_id_from_key"]}
{"id": "C16", "title": "Range lookups through the metadata index return exactly the matching rows", "statement": "Looking up an integer or floating-point range through the secondary index returns exactly the ids of stored rows whose value for the field is of that type and in the closed range.", "quantifier": "every history of inserts, updates and removes, every field and all bounds", "why_tests_cant": "boundary values, infinities and signed zeros; histories are unbounded", "anchors": ["include/storage/rocksdb_storage.hpp: get_ids_by_int_range, get_ids_by_double_range", "include/utils/index_encoding.hpp"]}
{"id": "C17", "title": "Index-accelerated filtering equals direct evaluation", "statement": "For a filter that can be answered from the secondary index, the set of rows accepted through the index equals the set of rows on which evaluating the filter returns true.", "quantifier": "every stored table, every single-condition filter on an indexed field", "why_tests_cant": "the two code paths differ only on special values (infinities, signed zero, NaN, strings with separators, missing fields)", "anchors": ["include/utils/metadata_filter_matcher.hpp: lookup_indexed_ids, try_indexed_fast_path", "include/utils/metadata_filter.hpp: evaluate"]}
{"id": "C18", "title": "Item ids identify at most one row", "statement": "After any history of inserts, batch inserts, updates and removes, two different live rows never have the same non-empty item id, and looking up an item id returns the row that carries it, or nothing if no live row does.", "quantifier": "every history of storage operations", "why_tests_cant": "the item-id map is maintained incrementally by five operations whose interleavings are unbounded", "anchors": ["include/storage/rocksdb_storage.hpp: insert, batch_insert, update, remove, find_by_item_id, item_id_available"]}
{"id": "C19", "title": "The secondary index tracks the rows", "statement": "After any history of inserts, updates and removes the secondary index holds exactly one entry for each (indexed field present in a live row, row) pair and no stale entries.", "quantifier": "every history of storage operations, every set of indexed fields", "why_tests_cant": "unbounded histories; updates that change, add or drop indexed fields", "anchors": ["include/storage/rocksdb_storage.hpp: insert, update, remove, add_field_indexes, remove_field_indexes"]}
{"id": "C20", "title": "The row count equals the number of live rows", "statement": "After any history of inserts, batch inserts, updates and removes (without a crash) the reported count equals the number of rows that can be read.", "quantifier": "every history of storage operations, including repeated removes and overwriting inserts", "why_tests_cant": "counter drift shows only for particular histories such as re-inserting an existing id or removing twice", "anchors": ["include/storage/rocksdb_storage.hpp: count, insert, batch_insert, remove"]}
{"id": "C21", "title": "Row keys sort numerically and parse back", "statement": "The key text of a row id parses back to that id, different ids have different keys, and for 32-bit ids keys compare lexicographically as the ids compare numerically; keys of other kinds never parse as row keys of existing ids by accident.", "quantifier": "all ids, all key texts", "why_tests_cant": "2^64 pairs of ids and arbitrary key texts", "anchors": ["include/storage/rocksdb_storage.hpp: data_key, legacy_data_key, parse_data_key"]}
{"id": "C22", "title": "Filtered scans return the first matching rows", "statement": "A filtered scan with limit n returns, in increasing id order, exactly the n smallest-id rows that satisfy the filter (all of them if there are fewer).", "quantifier": "every table, filter and limit", "why_tests_cant": "unbounded tables and filters", "anchors": ["include/storage/rocksdb_storage.hpp: scan_with_filter"]}
{"id": "C23", "title": "Bit sets behave as sets", "statement": "DynamicBitset, SparseBitset, HierarchicalBitset and EpochVisitedSet behave as sets of ids under any sequence of set/test/clear operations inside their declared range; find-first on the hierarchical set returns the smallest member, and the epoch set is empty after clear even when its 32-bit (or narrower) epoch wraps around.", "quantifier": "every operation sequence, every size, any number of clears including epoch wrap-around", "why_tests_cant": "wrap-around needs 2^32 clears; block boundaries at every size", "anchors": ["include/utils/query_utils.hpp: DynamicBitset, SparseBitset, HierarchicalBitset, EpochVisitedSet"]}
{"id": "C24", "title": "The open-addressing visited set behaves as a set", "statement": "The hash-based visited set used by graph search reports an id as present exactly if it was added since the last clear.", "quantifier": "every sequence of additions, every table size, every 32-bit id including the largest", "why_tests_cant": "depends on hash collisions, overflow lists and one sentinel id", "anchors": ["include/utils/rabitq_utils/search_utils/hashset.hpp: HashBasedBooleanSet"]}
{"id": "C25", "title": "The candidate pool keeps the closest candidates", "statement": "After any sequence of insertions into the bounded candidate pool its content is sorted by distance and consists of the capacity closest inserted candidates; an insertion is refused only if the pool is full of candidates at least as close.", "quantifier": "every capacity and every insertion sequence with ordered (non-NaN) distances", "why_tests_cant": "unbounded sequences with ties and interleaved pops", "anchors": ["include/utils/query_utils.hpp: LinearPool", "include/utils/rabitq_utils/search_utils/buffer.hpp: SearchBuffer"]}
{"id": "C26", "title": "The candidate pool never skips an unexplored candidate", "statement": "Popping from the pool always returns the closest candidate not yet popped among those in the pool; when has_next is false every candidate in the pool has been explored.", "quantifier": "every interleaving of insertions and pops", "why_tests_cant": "the cursor is moved back on insertion; off-by-one errors need a particular interleaving", "anchors": ["include/utils/query_utils.hpp: LinearPool::insert, pop, has_next", "include/utils/rabitq_utils/search_utils/buffer.hpp: SearchBuffer::insert, pop, has_next"]}
{"id": "C27", "title": "Search frontier contents do not depend on insertion order", "statement": "The bounded priority queue used by graph construction and disk search ends with the same contents for every order in which a set of candidates with distinct ids is inserted: the capacity smallest in (distance, id) order, with no id twice.", "quantifier": "every multiset of candidates, every permutation, every capacity", "why_tests_cant": "the claim that concurrent I/O completion order does not change results rests on it; permutations are factorial", "anchors": ["include/index/graph/vamana/robust_prune.hpp: NeighborPriorityQueue", "include/index/graph/diskann/beam_search.hpp: scan_and_insert_neighbors"]}
{"id": "C28", "title": "Greedy graph search terminates and returns a sound ranked result", "statement": "Greedy search on any directed graph terminates, returns at most k distinct reachable nodes with their true distances in increasing order, expands no node twice, and when the list size is at least the number of reachable nodes returns the exact k nearest reachable nodes.", "quantifier": "every finite graph, entry point, distance assignment, list size and k", "why_tests_cant": "graphs and distances are unbounded; termination is not testable", "anchors": ["include/index/graph/vamana/vamana_greedy_search.hpp", "include/index/graph/diskann/beam_search.hpp: disk_greedy_search", "include/executor/jobs/graph_search_job.hpp: search_solo"]}
{"id": "C29", "title": "Neighbor pruning yields a valid adjacency list", "statement": "Pruning a candidate pool returns at most the requested degree of distinct candidates from the pool, never the node itself, always keeps the closest candidate, and drops a candidate only if the list is full or a kept candidate occludes it.", "quantifier": "every pool, distance table, degree bound, and alpha of at least one", "why_tests_cant": "the alpha sweep loop interacts with ties, duplicates and the degree bound", "anchors": ["include/index/graph/vamana/robust_prune.hpp: occlude_list, prune_neighbors"]}
{"id": "C30", "title": "Merging shard graphs preserves adjacency", "statement": "Merging per-shard graphs produces, for every global node, a neighbor list without duplicates or self loops, within the degree bound, containing only neighbors that some shard gave the node; and every neighbor from a shard is present unless the bound was reached.", "quantifier": "every collection of shard graphs and sorted id maps", "why_tests_cant": "arbitrary overlaps between shards; unbounded sizes", "anchors": ["include/index/graph/vamana/shard_merger.hpp: merge_shards, read_idmap"]}
{"id": "C31", "title": "Reranking returns the exact nearest candidates", "statement": "Reranking a candidate list with exact distances returns the k candidates with the smallest exact distances in increasing order.", "quantifier": "every candidate list, distance assignment and k", "why_tests_cant": "unbounded lists with ties and duplicates", "anchors": ["include/executor/jobs/graph_search_job.hpp: rerank"]}
{"id": "C32", "title": "Brute-force filtered search is exact", "statement": "Filtered search by brute force returns exactly the k nearest rows among those that pass the filter, in increasing distance order, never a row that fails the filter.", "quantifier": "every table, filter outcome, distance assignment and k", "why_tests_cant": "unbounded tables", "anchors": ["include/executor/jobs/graph_hybrid_search_job.hpp: execute_brute_force_filter", "python/include/materialized_view.hpp: insert_candidate, sort_candidates"]}
{"id": "C33", "title": "The reported number of available vectors is right", "statement": "After any history of inserts and removes on a vector space the reported number of available vectors equals the number of stored vectors that have been inserted and not removed.", "quantifier": "every history, including removing twice and inserting into a full space", "why_tests_cant": "needs failing operations in the middle of histories", "anchors": ["include/space/raw_space.hpp: insert, remove, get_avl_data_num", "include/storage/sequential_storage.hpp"]}
{"id": "C34", "title": "Vector storage slots are never shared", "statement": "Fixed-capacity vector storage hands out each slot at most once, never beyond capacity, returns the bytes last written to a live slot, and reports a removed slot as invalid.", "quantifier": "every history of insert/update/remove/reserve, every capacity", "why_tests_cant": "unbounded histories; bitmap boundaries", "anchors": ["include/storage/sequential_storage.hpp: insert, reserve, remove, update, is_valid"]}
{"id": "C35", "title": "Tombstone bitmap behaves as a set of ids and survives a save/load", "statement": "Under any sequence of set and clear the tombstone bitmap answers exactly the set of tombstoned ids, its count is the cardinality, and serializing then deserializing preserves the set.", "quantifier": "every operation sequence over 32-bit ids, every chunk layout", "why_tests_cant": "chunk boundaries at multiples of 2^16 and unbounded sequences", "anchors": ["include/index/graph/diskann/tombstone_bitmap.hpp"]}
{"id": "C36", "title": "Slot allocation never hands out a live slot", "statement": "Slots returned by the allocator are never currently in use; a newly allocated slot stays invisible to searches until published; freed slots are reused; save and load preserve which slots are free and which are visible.", "quantifier": "every sequence of alloc/publish/free in which only live slots are freed", "why_tests_cant": "unbounded sequences; LIFO reuse", "anchors": ["include/index/graph/diskann/slot_allocator.hpp"]}
{"id": "C37", "title": "Updatable disk index: labels behave as a map", "statement": "After any history of insert, remove, batch insert and batch remove on the updatable disk index, each label resolves to at most one live slot, lookups agree with the last successful operation for that label, distinct live labels have distinct slots, live count equals the number of live labels, and rejected operations change nothing.", "quantifier": "every history of single and batch operations, including rejected ones", "why_tests_cant": "unbounded histories with slot reuse", "anchors": ["include/index/graph/diskann/diskann_index.hpp: insert, batch_insert, remove, remove_by_label, batch_remove, allocate_update_slot_unlocked, remove_unlocked_with_neighbors"]}
{"id": "C38", "title": "Updatable disk index: flush then load restores the index", "statement": "Flushing the updatable disk index and loading it again yields the same live labels, the same label-to-slot assignment, the same tombstones and free slots.", "quantifier": "every reachable index state", "why_tests_cant": "unbounded histories before the flush", "anchors": ["include/index/graph/diskann/diskann_index.hpp: flush, load, write_meta, read_meta, write_ids, read_ids, rebuild_label_lookup_unlocked", "include/index/graph/diskann/slot_allocator.hpp: save, load"]}
{"id": "C39", "title": "Updatable disk index: a crash during flush leaves a loadable index", "statement": "If the process crashes between any two file writes of a flush, loading the directory succeeds and yields the state before or after the flush.", "quantifier": "every pair of states and every crash point", "why_tests_cant": "needs fault injection between individual files", "anchors": ["include/index/graph/diskann/diskann_index.hpp: flush, load"]}
{"id": "C40", "title": "Concurrent search never pairs a label with another vector's distance", "statement": "Every (label, distance) pair returned by a search running concurrently with inserts and removes is the distance of a vector that was stored under that label at some time during the search.", "quantifier": "every interleaving of a search with updates", "why_tests_cant": "requires a particular interleaving (remove and slot reuse between scoring and label lookup)", "anchors": ["include/index/graph/diskann/diskann_index.hpp: search, make_search_snapshot, labels_"]}
{"id": "C41", "title": "Disk node records never overlap and read back what was written", "statement": "In the disk index layout distinct nodes occupy disjoint byte ranges inside the file, no record that fits in a sector crosses a sector boundary, and a node record read back from its position gives the coordinates and neighbor list that were written.", "quantifier": "every dimension, degree bound, node count and record content", "why_tests_cant": "geometry arithmetic over unbounded parameters", "anchors": ["include/index/graph/diskann/disk_layout.hpp: DiskLayoutGeometry, pack_node_record, NodeRecordView, write_disk_layout, read_disk_layout_header"]}
{"id": "C42", "title": "Page cache reads return the latest write", "statement": "Under any sequence of page reads and writes, evictions and flushes, reading a page returns the last content written to it; the cache never holds more pages than its capacity; after flushing the disk holds the latest content of every page.", "quantifier": "every operation sequence, capacity and shard layout", "why_tests_cant": "eviction of dirty pages depends on access history", "anchors": ["include/index/graph/diskann/disk_page_cache.hpp", "include/index/graph/diskann/disk_page_io.hpp: read_page_locked_off, write_page_locked, flush_dirty_pages"]}
{"id": "C43", "title": "Searches never install stale pages", "statement": "A page fetched by a search outside the lock is never installed over, or returned instead of, a newer write that happened between the fetch and the installation.", "quantifier": "every interleaving of search fetches with writers, evictions and flushes", "why_tests_cant": "a race between unlocked disk reads and writes", "anchors": ["include/index/graph/diskann/disk_page_io.hpp: search_peek_page, search_fill_page, read_page_snapshot"]}
{"id": "C44", "title": "Segment manifest round trip and validation", "statement": "Loading a saved segment manifest returns the saved manifest; every manifest that loads has file names that are plain names (no directory separators, no parent references), a well-formed segment id and consistent counts.", "quantifier": "every manifest, every file content", "why_tests_cant": "arbitrary file contents", "anchors": ["include/index/disk/segment_manifest.hpp: SegmentManifest::save, load, is_valid_basename, is_valid_segment_id, parse_kv_lines, parse_uint64"]}
{"id": "C45", "title": "Collection manifest round trip and validation", "statement": "Loading a saved collection manifest returns the saved manifest, including the order of segments; every manifest that loads lists only well-formed, distinct segment ids.", "quantifier": "every manifest, every file content", "why_tests_cant": "arbitrary file contents", "anchors": ["include/index/disk/segment_manifest.hpp: CollectionManifest::save, load, parse_segments_csv"]}
{"id": "C46", "title": "Segment ids never collide", "statement": "The id text generated for a segment number is well formed, parses back to the number, and distinct segment numbers have distinct ids, for every segment number the collection can reach.", "quantifier": "all segment numbers", "why_tests_cant": "failure appears only beyond 10^8 segments", "anchors": ["include/index/disk/disk_collection.hpp: format_segment_id, scan_orphans", "include/index/disk/segment_manifest.hpp: is_valid_segment_id"]}
{"id": "C47", "title": "Disk collection: flushed rows survive, search sees exactly them", "statement": "After any history of add, flush, crash and reopen, the searchable rows are exactly the rows of successfully flushed batches, each label is present at most once, and a crash at any point of a flush leaves either the old or the new set of rows.", "quantifier": "every history with crashes at any file system step", "why_tests_cant": "unbounded histories and crash points", "anchors": ["include/index/disk/disk_collection.hpp: add_batch, flush, open, scan_orphans, publish manifest"]}
{"id": "C48", "title": "A rejected batch does not block later flushes", "statement": "If a flush fails because of an invalid pending batch, later valid batches can still be added and flushed.", "quantifier": "every history with one invalid batch", "why_tests_cant": "needs a failing flush followed by further use", "anchors": ["include/index/disk/disk_collection.hpp: add_batch, flush"]}
{"id": "C49", "title": "Multi-segment search equals single-segment search", "statement": "Searching several segments and merging the per-segment top-k gives exactly the global k best by (distance, label), the same answer as if all rows were in one segment; results do not depend on how rows are distributed or on the order of segments.", "quantifier": "every distribution of rows over segments, every k, NaN distances included", "why_tests_cant": "unbounded partitions; ties across segments", "anchors": ["include/index/disk/disk_collection.hpp: search, disk_search_distance_less", "include/index/disk/disk_flat_searcher.hpp"]}
{"id": "C50", "title": "Batch search is independent of thread scheduling", "statement": "Batch search with any number of threads and any schedule gives for each query the result of the single search, each query processed exactly once.", "quantifier": "every schedule of workers over the shared counter", "why_tests_cant": "schedules are unbounded", "anchors": ["include/index/disk/disk_collection.hpp: batch_search", "include/index/graph/diskann/diskann_index.hpp: batch_search"]}
{"id": "C51", "title": "Locks exclude", "statement": "Under every interleaving of threads, a spin lock is held by at most one thread; a shared lock is never held exclusively together with any other holder, including after upgrading and degrading.", "quantifier": "every number of threads and every interleaving of atomic steps", "why_tests_cant": "races; weak CAS may fail spuriously", "anchors": ["include/utils/locks.hpp: SpinLock, SharedLock"]}
{"id": "C52", "title": "Scheduler runs every task to completion exactly once", "statement": "When the task scheduler's workers stop, every scheduled task has been run to completion and none has been resumed after completion or by two workers at once, under every interleaving.", "quantifier": "every number of workers and tasks, every interleaving", "why_tests_cant": "races between the emptiness check and the completion counters", "anchors": ["include/executor/worker.hpp: run", "include/executor/scheduler.hpp", "include/executor/task_queue.hpp"]}
{"id": "C53", "title": "Thread pool completion waits", "statement": "Waiting for all tasks returns only when every submitted task has finished, and each submitted task is run exactly once, under every interleaving.", "quantifier": "every interleaving of submitters and workers", "why_tests_cant": "race conditions", "anchors": ["include/utils/thread_pool.hpp"]}
{"id": "C54", "title": "The asynchronous gate never over-admits and never loses a waiter", "statement": "The coroutine gate never gives one slot to two holders, never exceeds its capacity, serves waiters in arrival order, and after all holders release no waiter is left suspended.", "quantifier": "every interleaving of acquire and release", "why_tests_cant": "unbounded schedules", "anchors": ["include/utils/coro_gate.hpp: AsyncGate"]}
{"id": "C55", "title": "Dictionary filters keep their meaning", "statement": "A filter dictionary is translated to a filter that accepts exactly the rows that satisfy every key of the dictionary (keys combine conjunctively, $or over its list, $and over its list).", "quantifier": "every filter dictionary and row", "why_tests_cant": "unbounded nesting and combinations of sibling keys", "anchors": ["python/src/alayalite/collection.py: _build_filter", "include/utils/metadata_filter.hpp"]}
{"id": "C56", "title": "Delete-by-filter deletes all matching rows and terminates", "statement": "Deleting by filter terminates, afterwards no row satisfies the filter, rows that do not satisfy it are untouched, and the returned number is the number of rows deleted.", "quantifier": "every table, filter and batch size", "why_tests_cant": "termination; tables with rows lacking item ids", "anchors": ["python/src/alayalite/collection.py: delete_by_filter", "include/storage/rocksdb_storage.hpp: scan_with_filter"]}
{"id": "C57", "title": "Graph files round trip and malformed ones are rejected", "statement": "Loading a saved navigation graph returns the same adjacency and entry point; a file that loads has all neighbor ids in range, no self loops and degrees within bounds.", "quantifier": "every graph, every file content", "why_tests_cant": "arbitrary file contents", "anchors": ["include/index/graph/vamana/vamana_writer.hpp: save_graph", "include/index/graph/vamana/vamana_reader.hpp"]}
{"id": "C58", "title": "Binary reader/writer round trip and bounds", "statement": "Reading with the binary reader the sequence of values written by the binary writer gives the same values; reading any byte string never consumes beyond its end and reports truncation.", "quantifier": "every sequence of values of every supported type, every byte string", "why_tests_cant": "unbounded sequences and contents", "anchors": ["include/utils/binary_io.hpp: BinaryWriter, BinaryReader"]}
{"id": "C59", "title": "Search effort parameters stay valid", "statement": "The adaptive search-effort computation never yields a list size below the requested k, never divides by zero or wraps, for every table size and number of matches.", "quantifier": "all counts and parameters", "why_tests_cant": "integer corner cases over 64-bit ranges", "anchors": ["include/executor/jobs/graph_hybrid_search_job.hpp: adjust_ef_in_search_info, should_use_brute_force_search", "include/utils/math.hpp"]}
{"id": "C60", "title": "Scalar quantization is monotone and bounded", "statement": "Scalar quantization of a value to 4 or 8 bits never leaves the code range, is monotone in the value, maps the fitted minimum to 0 and maximum to the largest code, and packing two 4-bit codes in a byte is reversible.", "quantifier": "all values and all fitted ranges", "why_tests_cant": "value domain is unbounded", "anchors": ["include/space/quant/sq8.hpp: quantize, fit, encode", "include/space/quant/sq4.hpp: quantize, fit, encode"]}
{"id": "C61", "title": "Logged operations decode to what was logged", "statement": "For every insert, upsert and remove, decoding the payload stored in the write-ahead log at replay yields exactly the search effort, vector bytes, record and ids with which the operation was logged.", "quantifier": "all vectors, records and ids", "why_tests_cant": "unbounded payload contents; composition of three encoders", "anchors": ["python/include/index.hpp: encode_insert_like_payload, encode_remove_item_payload, encode_remove_internal_payload, replay_record", "include/utils/binary_io.hpp"]}
{"id": "C62", "title": "Quantized distances are those of the decoded vectors", "statement": "The distance computed between two quantized vectors equals, up to the rounding of the arithmetic, the distance between the vectors the codes stand for, where the code of each dimension is decoded with that dimension's own fitted range and every dimension counts once.", "quantifier": "all dimensions, codes and fitted ranges", "why_tests_cant": "unbounded vectors and ranges; tests on uniform data use the same range in every dimension, which hides swapped dimensions", "anchors": ["include/simd/distance_l2.ipp: l2_sqr_sq8_generic, l2_sqr_sq4_generic", "include/simd/distance_ip.ipp: ip_sqr_sq4_generic", "include/space/quant/sq4.hpp: encode"]}
{"id": "C63", "title": "Filtered search delivers the ids of its result list", "statement": "For both id widths the library supports, the id array a search fills starts with exactly the ids held by its result list, nearest first and at most k of them, every other entry is the largest id value, and the number of results reported is the number of ids delivered.", "quantifier": "all result lists, all k, 32-bit and 64-bit ids", "why_tests_cant": "tests instantiate 32-bit ids only; result lists are unbounded", "anchors": ["include/executor/jobs/graph_hybrid_search_job.hpp: initialize_results, materialize_result_ids, count_materialized_results", "include/utils/rabitq_utils/search_utils/buffer.hpp: copy_results_to"]}
{"id": "C64", "title": "Filtered graph search returns only matching rows, nearest first, and does not come up short", "statement": "A filtered search over the graph (hybrid_search_solo) returns only rows that pass the filter, each once, ordered by exact distance, whichever execution mode is chosen (indexed exact, bitset prefilter with masked graph search, fall-back to brute force, iterative filtering) and whatever the effort adjustment decides. Without the iterative hint it returns topk rows or all matching rows; with the iterative hint it returns the first topk matching rows in the order in which the graph search expands rows. Unused places hold the invalid id.", "quantifier": "for all storages reached by operations, filters, graphs, distance functions, topk, ef and hints", "why_tests_cant": "Which mode runs depends on counts and floating-point thresholds, and each mode walks arbitrary graphs; tests fix a handful of small graphs and filters and compare recall, so an unfiltered row leaking in or a short answer in one branch goes unnoticed.", "anchors": ["include/executor/jobs/graph_hybrid_search_job.hpp:120-140", "include/executor/jobs/graph_hybrid_search_job.hpp:288-454", "include/executor/vector_iterator.hpp:36-160", "include/executor/jobs/graph_search_job.hpp:806-860"]}
{"id": "C65", "title": "Deleted vectors never come before live ones, nor into the results", "statement": "After any sequence of inserts and removals, a graph search returns each id at most once, ordered by distance; a removed vector is never placed before a live one, and removed vectors are not returned at all.", "quantifier": "for all graphs, distance functions, orders of hash containers and sequences of inserts and removals", "why_tests_cant": "Removed vectors stay in the graph and are only pushed to the end by a sentinel distance; whether one surfaces depends on how many live vectors the search reaches, which tests sample on a few data sets.", "anchors": ["include/space/raw_space.hpp:449-456", "include/executor/jobs/graph_search_job.hpp:698-751", "include/executor/jobs/graph_update_job.hpp:119-160"]}
{"id": "C66", "title": "Inserts and removals keep graph and vectors in step", "statement": "Whatever inserts and removals are made on a graph index, no access leaves allocated memory, the graph and the vector storage hand out the same consecutive ids, earlier vectors are untouched, and an insert is refused exactly when the index is full or its item id exists. Relinking a row keeps the closest of its old neighbours, the neighbours of its removed neighbours and the new vector. A vector just inserted is linked from another row and found by searching for it, and vectors found before stay found.", "quantifier": "for all graphs, distance functions, orders of hash containers and sequences of inserts and removals", "why_tests_cant": "Each update rewrites rows depending on all earlier removals and on hash iteration order; the bad cases need particular sequences (removed start, full rows, removed neighbours without edges).", "anchors": ["include/executor/jobs/graph_update_job.hpp:79-196", "include/executor/jobs/graph_update_job.hpp:222-255", "include/executor/jobs/job_context.hpp:11-18", "include/executor/jobs/graph_search_job.hpp:753-805"]}
{"id": "C67", "title": "NSG construction ends and leaves every vector reachable", "statement": "Building an NSG index ends, never leaves its tables, gives every vector a row of valid neighbours, and every stored vector can be reached from the entry point (that is what the last stage, which attaches unlinked vectors, is for).", "quantifier": "for all vectors, distances, neighbour graphs, random draws and parameters", "why_tests_cant": "Tests build a few data sets and check recall; the attaching stage only matters when some vector is unlinked, and termination depends on every row's fill level and on random draws.", "anchors": ["include/index/graph/nsg/nsg_builder.hpp:87-278", "include/index/graph/nsg/nsg_builder.hpp:340-480", "include/index/graph/nsg/nsg_builder.hpp:491-650"]}
{"id": "C68", "title": "A fused graph has the links of both graphs", "statement": "In the graph fused from two graphs the neighbours of every vector are exactly its neighbours in either graph, none is listed twice, none is cut off when rows are narrowed, and everything reachable in either graph stays reachable.", "quantifier": "for all pairs of graphs over the same vectors", "why_tests_cant": "Narrowing to the widest row and skipping duplicates involve all rows at once; tests compare a few rows.", "anchors": ["include/index/graph/fusion_graph.hpp:44-115"]}
{"id": "C69", "title": "An HNSW index is well-formed on every layer and every vector can be reached", "statement": "Building an HNSW index ends without undefined behaviour; every vector has a row of distinct other vectors on each layer up to its level, never longer than allowed and never empty when there is another vector on the layer; the entry point is on the highest layer; the index can be searched; and every stored vector can be reached from the entry point.", "quantifier": "for all vectors, distance functions, level draws, insertion orders and parameters", "why_tests_cant": "Tests build a few data sets and check recall with a threshold; bounds of the link lists and reachability depend on every earlier insertion and on the drawn levels.", "anchors": ["include/index/graph/hnsw/hnswlib.hpp:84-110", "include/index/graph/hnsw/hnswlib.hpp:163-741", "include/index/graph/hnsw/hnsw_builder.hpp:57-184"]}
{"id": "C70", "title": "A list of visited nodes is clean when handed out and private to one search", "statement": "While an HNSW index is built by several threads, a search sees a node as visited exactly if that same search marked it, whatever the reused memory held and however often the 16-bit tag has wrapped around; two searches never share a list.", "quantifier": "for all initial memory contents, numbers of searches and interleavings", "why_tests_cant": "The tag wraps only after 65535 reuses of one list, and the memory of a new list is uninitialised.", "anchors": ["include/index/graph/hnsw/visited_list_pool.hpp:15-74", "include/index/graph/hnsw/hnswlib.hpp:365-473"]}
{"id": "C71", "title": "A client keeps its collections and indices apart and brings them back", "statement": "Every call on a client concerns the named object only: it changes no other collection or index and no file outside the client's directory, a name belongs to at most one object, and after opening the directory again each name shows exactly what was inserted into the collection or last saved for the index, unless it was deleted on disk.", "quantifier": "for all names, database paths, contents and sequences of create, insert, fit, save, delete, reset and reopen", "why_tests_cant": "The directories and databases of different names interact only for particular names, places and orders of deleting, creating and reopening.", "anchors": ["python/src/alayalite/client.py:29-313", "python/src/alayalite/collection.py:25-95", "python/src/alayalite/collection.py:503-537", "python/src/alayalite/index.py:107-310", "python/src/alayalite/schema.py:199-233", "python/include/index.hpp:144-151"]}
{"id": "C72", "title": "RaBitQ estimates come from the neighbour's own code and from the query, on every instruction set", "statement": "The packed codes of a node's neighbours are looked up so that each neighbour's word is the sum of the table entries its own code selects, the same on scalar, AVX2 and AVX-512; the table of a query gives the sum of the query over the set bits; and the estimated distance of each neighbour differs from the RaBitQ estimator, and where all residual coordinates have the same magnitude from the true distance, only by the rounding of the table.", "quantifier": "for all dimensions, codes, numbers of neighbours, blocks, queries and instruction sets", "why_tests_cant": "A test runs one instruction set on a few vectors; permuted lanes, carries between bytes of a 16-bit accumulator and overflow show only for some codes, queries and dimensions.", "anchors": ["include/utils/rabitq_utils/fastscan.hpp:40-309", "include/utils/rabitq_utils/fastscan.hpp:403-415", "include/utils/rabitq_utils/lut.hpp:52-117", "include/space/quant/rabitq.hpp:29-156", "include/space/rabitq_space.hpp:527-600"]}
{"id": "C73", "title": "LASER scans every neighbour with the signs of its own code", "statement": "The codes packed through 64-bit words form the same blocks as byte-wise packing, the six-bit values of a prepared query bracket the rotated query, and the scanned value of each neighbour is the sum of these values with the signs of the neighbour's code, on every instruction set.", "quantifier": "for all dimensions, queries, codes, numbers of neighbours, blocks and instruction sets", "why_tests_cant": "Byte wrap-around in the table and 16-bit wrap-around in the sum occur only for particular rotated queries and dimensions; instruction sets other than the test machine's are never run.", "anchors": ["include/index/graph/laser/quantization/fastscan_impl.hpp:34-156", "include/index/graph/laser/space/bitwise.hpp:34-46", "include/index/graph/laser/utils/scalar_quantize.hpp:45-77", "include/index/graph/laser/qg/qg_query.hpp:58-72", "include/index/graph/laser/qg/qg_scanner.hpp:55-88", "include/simd/laser_dispatch.hpp:98-289", "include/simd/laser_dispatch.hpp:374-422"]}
{"id": "C74", "title": "Product-quantized distances are those of the vectors the codes stand for", "statement": "In exact arithmetic the table-lookup distance of a query to a coded point is the squared distance to the vector its codes stand for (centroid plus the named codewords), the symmetric distance is that between two such vectors, encoding picks the nearest such vector of all, training on at most 256 vectors stores them without loss, and more training iterations never make the codes of the training data worse.", "quantifier": "for all tables of the right shape, queries, points, training data, random choices, numbers of iterations and orders of the worker threads", "why_tests_cant": "Tests compare a few random vectors within a tolerance; they cannot show that no other of the 256^chunks codes would be nearer, nor that no data set gets worse by further iterations.", "anchors": ["include/index/graph/diskann/pq_table.hpp:71-154", "include/index/graph/diskann/pq_table.hpp:164-271", "include/index/graph/diskann/pq_table.hpp:279-361", "include/index/graph/diskann/pq_table.hpp:497-671"]}
{"id": "C75", "title": "Product-quantization tables do not depend on how they were computed, stored or read", "statement": "Whatever the arithmetic of floats: the batched distances are those of the single calls, training and encoding give the same table in whatever order the threads take chunks and blocks, each code row is that of its own vector, encode_one changes only its row, a saved table is loaded back the same, and files of a wrong size are refused.", "quantifier": "for all arithmetics, tables, vectors, batches of any size, thread schedules and file contents", "why_tests_cant": "Thread schedules cannot be enumerated by running, batch sizes cross the tile of 96 points in many ways, and tests save and load only a few tables.", "anchors": ["include/index/graph/diskann/pq_table.hpp:98-154", "include/index/graph/diskann/pq_table.hpp:164-230", "include/index/graph/diskann/pq_table.hpp:300-333", "include/index/graph/diskann/pq_table.hpp:370-493"]}
{"id": "C76", "title": "A Vamana build by any number of threads ends in a well-formed graph", "statement": "Whatever the number of threads and however their accesses to the neighbour lists interleave, building never reads or writes outside its arrays, every thread finishes after a bounded number of steps, at every moment each list names existing other nodes without repetition and at most 1.3 R of them, and the finished graph has at most R per node.", "quantifier": "for all data without NaN distances, parameters, numbers of threads and interleavings", "why_tests_cant": "A test runs one interleaving of a few threads; the number of interleavings is astronomical and races show up rarely.", "anchors": ["include/index/graph/vamana/vamana_builder.hpp:208-289", "include/index/graph/vamana/vamana_builder.hpp:291-355", "include/index/graph/vamana/vamana_builder.hpp:444-549"]}
{"id": "C77", "title": "After a Vamana build every vector can be reached from the entry point", "statement": "In the finished graph every vector can be reached from the entry point along the links, so that a search with a large enough list can return it.", "quantifier": "for all data, parameters, numbers of threads and interleavings", "why_tests_cant": "Tests measure the recall of a few data sets; one unreachable vector among thousands does not show, and races appear in rare interleavings only.", "anchors": ["include/index/graph/vamana/vamana_builder.hpp:268-289", "include/index/graph/vamana/vamana_builder.hpp:291-355", "include/index/graph/vamana/vamana_builder.hpp:444-549"]}
{"id": "C78", "title": "The entry point of a Vamana graph is a vector nearest to the centroid, determined by the data", "statement": "Whatever the number of threads and the order in which they report their best vector, the entry point is a vector nearest to the centroid, and the same for the same data.", "quantifier": "for all data, numbers of threads and orders of the critical sections", "why_tests_cant": "Ties between blocks of 65536 vectors and the order of the threads cannot be arranged in a unit test.", "anchors": ["include/index/graph/vamana/vamana_builder.hpp:160-206"]}
{"id": "C79", "title": "Sharding gives every vector to its k nearest centres, and the shard files hold exactly that", "statement": "When a data file is split into shards, every vector goes to the k centroids nearest to it and to no other shard; each shard's data file and id file hold the vectors it was given, in ascending order, with the right counts; the block size of the streaming does not matter and truncated inputs are refused.", "quantifier": "for all data files, centroids, k, block sizes and distances", "why_tests_cant": "The unit tests check a few random files; ties, infinite or undefined distances and block boundaries at any position cannot be enumerated.", "anchors": ["include/index/graph/vamana/kmeans_partition.hpp:78-174", "include/index/graph/vamana/shard_assigner.hpp:46-244"]}
{"id": "C80", "title": "A build shard by shard covers every vector and its entry point is nearest to the centroid", "statement": "Splitting, building each shard and merging gives one graph with a row for every vector, made of what the shards' graphs gave it; its entry point is a vector nearest to the centroid, for any number of threads.", "quantifier": "for all data, centroids, shard graphs, shuffles, block sizes, threads and orders of threads", "why_tests_cant": "The builder of each shard, the shuffle and the thread order are arbitrary; a shard that gets no vector does not occur with the random data of the tests.", "anchors": ["include/index/graph/vamana/build_dispatch.hpp:148-168", "include/index/graph/vamana/build_dispatch.hpp:250-404", "include/index/graph/vamana/shard_merger.hpp:63-149"]}
{"id": "C81", "title": "The number of shards is the smallest one that fits the memory budget", "statement": "The growth loop ends; the number of parts it returns makes every estimated shard fit the budget, no smaller number that it tries does, and it throws exactly when none does.", "quantifier": "for all estimates, budgets, sample sizes and limits", "why_tests_cant": "The loop depends on the estimates for every number of parts, of which a test fixes one sequence.", "anchors": ["include/index/graph/vamana/budget_estimator.hpp:114-178"]}
{"id": "C82", "title": "k-means++ picks different vectors and ends", "statement": "The seeding of k-means picks as many centres as asked, each different from all picked before while the sample has vectors left that none of them covers, and it never has to draw twice for one centre.", "quantifier": "for all samples, numbers of centres, first picks, streams of draws and roundings of the sums", "why_tests_cant": "The outcome depends on a random stream, and the re-draw loop has no bound; a test sees one seed and data with finite distances.", "anchors": ["include/index/graph/vamana/kmeans_partition.hpp:190-289"]}
{"id": "C83", "title": "Training the shard centres never makes them worse", "statement": "Every Lloyd iteration puts each centre at the mean of the points nearest to it, the reported residual lies between the total distance after and before the iteration and never rises, training stops early only if it has converged, and estimated cluster sizes are the sampled counts divided by the sampling rate. The centres found are fit for a partitioned build.", "quantifier": "for all samples, initial centres, repetitions, tolerances and rates", "why_tests_cant": "Descent over all iterations and data is an invariant; clusters that lose all their points do not occur in the tests' random data.", "anchors": ["include/index/graph/vamana/kmeans_partition.hpp:299-472"]}
{"id": "C84", "title": "The quantized search on disk returns true distances, best first, whatever the order of reads", "statement": "A product-quantized search of a disk index terminates in both modes, returns at most top_k different live nodes with their true distances, closest first, takes them from the candidates best by quantized distance, processes no node twice, needs no further read to rerank, and is exact when the list holds every reachable node. It returns top_k nodes when so many are found; deterministic searches give the same results on every run, and asynchronous ones differ only in ties.", "quantifier": "for all graphs, distances, caches, orders of completed reads, parameters and histories of the scratch", "why_tests_cant": "The order in which the device completes reads and the state of the page cache cannot be enumerated; tests run on fast local files where reads complete in order.", "anchors": ["include/index/graph/diskann/beam_search.hpp:476-793"]}
{"id": "C85", "title": "Searches run as coroutines return what the synchronous ones do", "statement": "The coroutine search without quantization expands the same nodes in the same order and returns the same results as the deterministic search and as the textbook best-first search, whatever is cached and whatever the wave buffer holds. The coroutine search with quantization terminates, returns live nodes with true distances, closest first, processes no node twice, and equals the deterministic search when nothing is cached.", "quantifier": "for all graphs, distances, caches, wave buffers, beam widths and histories of the scratch", "why_tests_cant": "Equality of two schedulers over every graph and every cache state; tests compare recall on a few random data sets.", "anchors": ["include/index/graph/diskann/beam_search_async.hpp:71-243", "include/index/graph/diskann/beam_search_async.hpp:245-389"]}
{"id": "C86", "title": "The cache of node records holds the nodes nearest the medoid, with exactly their records", "statement": "generate keeps the requested number of nodes that are the fewest hops from the medoid, nearest first, none twice, and all reachable ones if they are fewer. A cached record has the bytes the disk file has for that node. After any history of inserting, relinking, dropping disk-backed overrides, saving and loading, a lookup returns the complete last record of its node or nothing, and size counts these nodes. No files that load make a lookup read outside the cache.", "quantifier": "for all graphs, vectors, medoids, cache sizes, histories of operations and file contents", "why_tests_cant": "The choice is a statement about shortest paths in every graph, and the rest about every history and every damaged file; tests use one small graph and one override.", "anchors": ["include/index/graph/diskann/node_cache.hpp:74-142", "include/index/graph/diskann/node_cache.hpp:147-262", "include/index/graph/diskann/node_cache.hpp:271-345"]}
{"id": "C87", "title": "Searches of an updatable disk index see every update", "statement": "At every moment, whatever was inserted and relinked, written back, flushed, closed and opened again, a search reads of each node the vector and the neighbours last written, whether it finds them in the cache of records, in the page cache or on disk.", "quantifier": "for all built indexes and all histories of insertions, relinkings, page write-backs, flushes and reopenings", "why_tests_cant": "The three places agree only if every path that writes one of them writes or drops the others, in every history; tests flush before they look.", "anchors": ["include/index/graph/diskann/diskann_index.hpp:1009-1054", "include/index/graph/diskann/diskann_index.hpp:1690-1695", "include/index/graph/diskann/diskann_index.hpp:1908-1938", "include/index/graph/diskann/beam_search.hpp:232-254"]}
{"id": "C88", "title": "The random rotations keep inner products, lengths and distances", "statement": "Whatever random bits are drawn, the rotators of RaBitQ and LASER turn every vector of the dimensions they accept into a padded vector, without touching memory outside it, such that inner products, lengths and distances of any two vectors stay what they were (up to rounding). The fast Hadamard transform is the Walsh-Hadamard transform for every power of two.", "quantifier": "for all dimensions, paddings, random bits and vectors", "why_tests_cant": "Isometry is an equation for all pairs of vectors and all sign patterns; a test with a tolerance on random vectors cannot tell a wrong butterfly in a rare block or a scale off by rounding from the real thing.", "anchors": ["include/utils/rabitq_utils/rotator.hpp:63-72", "include/utils/rabitq_utils/rotator.hpp:133-187", "include/utils/rabitq_utils/rotator.hpp:189-380", "include/simd/fht.ipp:27-43", "include/index/graph/laser/utils/rotator.hpp:41-146"]}
{"id": "C89", "title": "The RaBitQ graph is regular: every vector gets exactly 32 distinct neighbours with true distances", "statement": "Whenever the builder of the RaBitQ graph returns, every vector has exactly degree-bound (32) neighbours, all different, none of them itself, all existing, each stored with its true distance, and nothing was accessed out of bounds; whatever the estimates from the codes, the random numbers and the interleaving of the threads adding reverse edges. It returns whenever there are vectors. Pruning keeps a diverse part of the candidates.", "quantifier": "for all numbers of vectors, symmetric distances, estimates, random numbers and interleavings of the reverse edges", "why_tests_cant": "The result depends on random numbers, on quantization error and on the order in which threads add reverse edges; a test sees one graph, and a build that never ends looks like a slow one.", "anchors": ["include/index/graph/qg/qg_builder.hpp:76-527", "include/space/rabitq_space.hpp:238-243", "python/include/index.hpp:599-612"]}
{"id": "C90", "title": "A batch read through the shared io_uring ends with exactly its own results", "statement": "However many batches of reads share the io_uring, however they are interleaved, and whatever part of a submission the kernel takes, refuses or completes, in any order: a batch that returns has had each of its reads answered exactly once, holds exactly these answers, and reports how many are not of the size asked for. No completion is written into a batch that has ended, and none is outstanding then. A batch throws only if the kernel refused a submission. Once no new batches come and calls are not interrupted for ever, every batch ends after finitely many steps.", "quantifier": "for all queue depths, batches, interleavings, kernel answers and results", "why_tests_cant": "Lost or foreign completions, writes into a finished coroutine frame and waits that never end need rare interleavings and kernel failures (partial submissions, EAGAIN, hard errors); the paths are excluded from coverage because no test can produce them.", "anchors": ["include/storage/io/uring_reactor.hpp:85-310", "include/index/graph/diskann/disk_page_io.hpp:640-700"]}
{"id": "C91", "title": "A collection is a map from item ids to vectors and records", "statement": "After any history of inserts, upserts and deletes, with any failing writes: every stored row belongs to a vector that is not removed; looking up an item id gives exactly its record; an insert that returns an id has added exactly that item, a delete removes exactly that item; an upsert either replaces exactly that item or raises and leaves the collection as it was; nothing is dropped without an exception; rebuilding the collection keeps every item with its vector and record.", "quantifier": "for all collections, histories, vectors, records, efs, hash orders and failing writes", "why_tests_cant": "An upsert is a removal, an insertion and possibly a rollback over two stores; which combinations of a full index, a narrow search, a failing write and removed neighbours lose an item shows only over all histories.", "anchors": ["python/include/index.hpp:323-405", "python/src/alayalite/collection.py:244-458", "include/executor/jobs/graph_update_job.hpp:79-160", "include/space/raw_space.hpp:164-201"]}
{"id": "C92", "title": "A LASER search answers with the closest nodes whatever the order of its reads", "statement": "A search of the LASER disk index ends as soon as its reads have been reported, whatever their order and timing; it never runs out of read slots, never processes a node twice or with the record of another node; it answers with the ids of the closest nodes it has read, in order of their true distances, all of them reachable; every candidate it learns of is read unless ef others had estimates at least as good; with room for all candidates it finds the closest of all reachable nodes; a failed read is noticed.", "quantifier": "for all graphs, page layouts, caches, medoids, beam widths, efs, result counts, earlier contents of the slots, and all orders and timings of completions", "why_tests_cant": "Slots are recycled while reads are in flight and half of each batch is left for the next round; which nodes are processed when depends on the timing of the disk, of which a test sees one.", "anchors": ["include/index/graph/laser/qg/qg.hpp:400-725", "include/index/graph/laser/utils/buffer.hpp:33-148", "include/index/graph/laser/utils/aligned_file_reader.hpp:394-475"]}
{"id": "C93", "title": "LASER segments appear whole or not at all, keep their labels, and are searched with the parameters asked for", "statement": "Importing native LASER files makes the segment directory appear complete, under a free name, exactly when the import returns; an error or crash at any step leaves every other directory as it was and no part of the segment. A segment that was imported can be opened, with the labels given, in order, and whatever can be opened has agreeing counts in manifest, index and label file and only plain names of existing files. Each search uses its own ef and beam width, whatever was searched before, and its hits are the labels of the points the engine answers with.", "quantifier": "for all source directories, labels, parameters, earlier contents of the collection, failing or crashing steps and concurrent additions, all segment directories, and all sequences of searches", "why_tests_cant": "Every step can fail or be the last before a crash, other processes race for the same name, the manifest goes through text, and the cached parameters depend on the whole history of searches including failed ones.", "anchors": ["include/index/disk/laser_segment_importer.hpp:59-354", "include/index/disk/laser_segment_searcher.hpp:44-378", "include/index/graph/laser/qg/qg.hpp:232-251", "include/index/graph/laser/qg/qg.hpp:313-343", "include/utils/platform_fs.hpp:314-365"]}
{"id": "C94", "title": "Index.fit leaves the PCA of the vectors and seed it was given, however often it was interrupted and whatever it found", "statement": "When laser Index.fit returns, the base file holds every given vector, transformed by the PCA of the requested seed, once and in order, and the saved parameters and the seed sidecar belong to the same vectors and seed. Earlier calls that were killed at any point, and artifacts of other seeds or vectors left in the directory, do not change that.", "quantifier": "for all vectors, dimensions, chunk sizes, seeds and settings of skip_existing, all numbers of earlier calls killed at any byte, and all earlier calls with other seeds or vectors", "why_tests_cant": "A kill can fall on any byte of any file of any earlier call, and what is resumed depends on file sizes in units of 100000 vectors, which tests with small data never reach.", "anchors": ["python/src/alayalite/laser/__init__.py:291-327", "python/src/alayalite/laser/__init__.py:381", "python/src/alayalite/laser/_pca.py:131-180", "python/src/alayalite/laser/_idempotence.py:41-73", "python/src/alayalite/laser/_idempotence.py:102-143"]}
