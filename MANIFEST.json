{
 "claims": [
  {
   "property": "C01",
   "status": "proved",
   "theorems": [
    "C01_table_is_finite_map",
    "C01_lookup_returns_last_write",
    "C01_other_keys_unchanged"
   ],
   "note": "Refinement of the heap-level single-thread tree (get, insert/overwrite, remove, abandoned insert, deferred layer collection) to a finite map, for all histories of any length and all byte strings. Reclamation of retired nodes is not modelled here (they keep their contents)."
  },
  {
   "property": "C02",
   "status": "proved",
   "theorems": [
    "C02_insert_position_reports_presence",
    "C02_locked_position_reports_presence",
    "C02_operations_report_previous_value",
    "C02_abandoned_insert_invisible"
   ],
   "note": "Both positioning calls (find_insert, find_locked) report presence exactly; results of every write equal the previous value; an abandoned insert can be dropped from any history without changing any other result."
  },
  {
   "property": "C03",
   "status": "proved",
   "theorems": [
    "C03_distinct_keys_never_collide",
    "C03_decomposition_injective"
   ],
   "note": "Slice-by-slice comparison separates any two distinct byte strings, and the layered decomposition is injective; every length, every byte value. The tree-level consequence is C01."
  },
  {
   "property": "C04",
   "status": "proved",
   "theorems": [
    "C04_forward_scan",
    "C04_scan_of_long_key_refuted"
   ],
   "note": "All histories whose inserted keys have at most MASSTREE_MAXKEYLEN = 255 bytes, all start keys that fit the key buffer, any scanner: the scanner is called on exactly the present keys from the start on, in strictly increasing order, until it says stop, and the count is right; uninitialised buffer contents do not matter. The length bound is needed: C04_scan_of_long_key_refuted (insertion accepts longer keys; a scan then writes past its buffer)."
  },
  {
   "property": "C05",
   "status": "proved",
   "theorems": [
    "C05_reverse_scan"
   ],
   "note": "As C04, downwards."
  },
  {
   "property": "C06",
   "status": "proved",
   "theorems": [
    "C06_slice_order_is_lexicographic",
    "C06_string_compare_is_lexicographic",
    "C06_one_layer_compare",
    "C06_shift_and_unshift",
    "C06_slice_roundtrip",
    "C06_equals_sloppy_is_memcmp"
   ],
   "note": "All byte strings of all lengths; includes the library's string compare, the one-layer compare used by node search, the slice round trip and the sloppy 8-byte comparison."
  },
  {
   "property": "C07",
   "status": "proved",
   "theorems": [
    "C07_scans_unaffected_by_cleanup",
    "C07_layer_collection_invisible",
    "C07_collection_of_any_prefix_invisible"
   ],
   "note": "Any deferred collection, at any time and for any prefix, can be dropped from the history without changing any other result or any later scan in either direction. Scans: inserted keys of at most 255 bytes (see C04)."
  },
  {
   "property": "C08",
   "status": "proved",
   "theorems": [
    "C08_operations_never_stuck"
   ],
   "note": "The model's error outcomes (null or wrong-kind dereference, failed assertion, exhausted loop bound) are unreachable for every history."
  },
  {
   "property": "C09",
   "status": "proved",
   "theorems": [
    "C09_border_lists",
    "C09_keys_in_reached_nodes"
   ],
   "note": "In every reachable table and every layer: border nodes partition the 64-bit slices, list order and links agree, descents reach the responsible node, live slots are ordered and in range; each present key is stored exactly once, in the node a descent for it reaches."
  },
  {
   "property": "C10",
   "status": "proved",
   "theorems": [
    "C10_insert_from_back",
    "C10_insert_selected",
    "C10_remove",
    "C10_remove_to_back",
    "C10_exchange",
    "C10_exchange_values",
    "C10_make_sorted",
    "C10_set_size",
    "C10_any_history_keeps_a_permutation",
    "C10_rotate_documentation_refuted",
    "C10_rotate_actual"
   ],
   "note": "All widths 1..15, all permutations and sizes. The documentation of rotate is refuted (C10_rotate_documentation_refuted) and its true law proved (C10_rotate_actual); no code calls rotate."
  },
  {
   "property": "C11",
   "status": "proved",
   "theorems": [
    "C11_internode_upper_bound",
    "C11_leaf_lower_bound"
   ],
   "note": "All sorted nodes and keys; linear and binary searches agree and return the described position."
  },
  {
   "property": "C12",
   "status": "proved",
   "theorems": [
    "C12_every_slot_keeps_its_string",
    "C12_safe_size_is_enough",
    "C12_full_capacity_refuted"
   ],
   "note": "All widths, capacities below 2^b and store sequences. At capacity exactly 2^b (allowed by the constructor's assertion) the property is refuted: C12_full_capacity_refuted."
  },
  {
   "property": "C13",
   "status": "proved",
   "theorems": [
    "C13_changes_are_reported",
    "C13_no_false_alarm",
    "C13_unbounded_refuted"
   ],
   "note": "32-bit words, all histories with fewer than 2^19 completed modifications between the two reads; C13_unbounded_refuted shows the bound is needed and tight."
  },
  {
   "property": "C14",
   "status": "proved",
   "theorems": [
    "C14_mutual_exclusion",
    "C14_stable_reads_are_not_mid_modification"
   ],
   "note": "Any number of threads, every interleaving of individual loads, stores and compare-and-swaps, sequentially consistent."
  },
  {
   "property": "C15",
   "status": "partial",
   "theorems": [
    "C15_read_partial",
    "C15_cursor_partial",
    "C15_always_good_partial"
   ],
   "note": "M_Leafread models one leaf word by word: every load of an unlocked search (find_unlocked, find_locked), every store of find_insert/finish_insert/make_split/finish_remove/make_new_layer/gc_layer/update. C15_read_partial: any number of threads, any interleaving, the answer was true of the leaf outside marked modifications at a moment during the search. C15_cursor_partial: find_locked's cursor is exact for the locked leaf. C15_always_good_partial: well-formed after every store. Missing: searches overlapped by 2^19 or more completed modifications (version counter may come full circle, C13_unbounded_refuted); advance_to_key and the walk down the tree are outside."
  },
  {
   "property": "C16",
   "status": "partial",
   "theorems": [
    "C16_quiet",
    "C16_path_partial",
    "C16_exact_refuted",
    "C16_no_deadlock"
   ],
   "note": "Proved for all schedules of any number of threads, one memory access at a time, sequentially consistent: when nothing is in progress forward links are exactly the live leaves, unmarked, and backward links mirror them; at every moment the forward links lead through all live leaves in order to the end, extra leaves only being unlinked ones and only during a split; no null dereference; no deadlock. The claim that the forward list is always exactly the live leaves is refuted with a schedule. Reuse of unlinked memory and weak memory orders are not modelled here."
  },
  {
   "property": "C17",
   "status": "proved",
   "theorems": [
    "C17_unlinked_first",
    "C17_unlinked_in_epoch",
    "C17_unlinked_in_section_refuted"
   ],
   "note": "Proved for any number of threads and any schedule of single accesses (sequentially consistent) while the 64-bit epoch does not wrap: C17_unlinked_first; also under a weaker rule, C17_unlinked_in_epoch. The rule that the code follows in apply_replace, apply_remove, remove_leaf and gc_layer (retire first, unlink later in the same critical section) does not suffice: C17_unlinked_in_section_refuted."
  },
  {
   "property": "C18",
   "status": "proved",
   "theorems": [
    "C18_fifo",
    "C18_progress"
   ],
   "note": "For every group size, batch size, callback behaviour and run: no assertion fails, the observable trace is that of a first-in first-out queue whose objects leave only after their epoch, and every collection releases a full batch or everything releasable. Epochs without wrap-around below 2^63."
  },
  {
   "property": "C19",
   "status": "partial",
   "theorems": [
    "C19_sequential_partial",
    "C19_concurrent_partial",
    "C19_split_race_refuted",
    "C19_store_race_refuted",
    "C19_chain_race_refuted",
    "C19_in_place_refuted"
   ],
   "note": "Proved for threads taking turns on the whole tree (splits, leaf removals, layer collection) and for threads overlapping access by access in one layer as long as no leaf removal exchanges a phantom epoch inside another thread's window. The unrestricted claim is false: three races and the in-place update of versioned rows are refuted by witness. Missing: overlap across layers, wrap of the clocks, restarts."
  },
  {
   "property": "C20",
   "status": "proved",
   "theorems": [
    "C20_issue_order",
    "C20_irreflexive",
    "C20_asymmetric_total",
    "C20_transitive",
    "C20_transitive_unrestricted_refuted",
    "C20_next_nonzero"
   ],
   "note": "All widths of at least 8 bits; C20_transitive_unrestricted_refuted shows the half-range condition is needed."
  },
  {
   "property": "C21",
   "status": "proved",
   "theorems": [
    "C21_record_round_trip",
    "C21_file_round_trip"
   ],
   "note": "Every entry kind decodes as itself and whole files round trip, for all keys up to 255 bytes, values below 2^31 bytes, timestamps and epochs; the four trailing bytes the encoder leaves unwritten are arbitrary."
  },
  {
   "property": "C22",
   "status": "proved",
   "theorems": [
    "C22_cut",
    "C22_cut_info"
   ],
   "note": "For every cut position the decoder, logreplay::info and min_post_quiescent_wake_epoch see exactly the complete records before the cut. No read leaves the file (the model's loads fail outside it)."
  },
  {
   "property": "C23",
   "status": "partial",
   "theorems": [
    "C23_replay_partial",
    "C23_marker_refuted"
   ],
   "note": "For any number of keys, any base table, and any replay order and number of stale records: replay succeeds and every column is the last written. Missing: removals (false, see C24), change sets that fit a row but not a delta marker (false: C23_marker_refuted), and version_array rows."
  },
  {
   "property": "C24",
   "status": "partial",
   "theorems": [
    "C24_remove_refuted"
   ],
   "note": "False of the code: replaying a removal parses the 4 bytes of the row marker as a change set, which fails. C24_remove_refuted shows this for every removal that is not out of date."
  },
  {
   "property": "C25",
   "status": "partial",
   "theorems": [
    "C25_replay_partial",
    "C25_empty_key_refuted",
    "C25_long_key_refuted"
   ],
   "note": "Replay applies exactly the updates of non-empty keys in the recovered epochs, for every cut. The full statement is false: updates of the empty key are skipped (C25_empty_key_refuted) and a key of more than 255 bytes ends replay (C25_long_key_refuted)."
  },
  {
   "property": "C26",
   "status": "partial",
   "theorems": [
    "C26_kept_partial",
    "C26_wake_refuted",
    "C26_fresh_refuted"
   ],
   "note": "Proved: recovery reads a prefix of each log (at least the synced part) and applies exactly the prefix's updates in a range of epochs common to all logs; no update of that range is missing from a log whose file does not end quiescent. The full statement is false: a wake-up swallowed by a re-quiescing log (C26_wake_refuted) and an empty log file (C26_fresh_refuted) lose an update while a later one is kept. Updates that stall are excluded (C36_stall_refuted)."
  },
  {
   "property": "C27",
   "status": "proved",
   "theorems": [
    "C27_message_roundtrip",
    "C27_integer_roundtrip",
    "C27_wide_integer_roundtrip",
    "C27_bool_roundtrip",
    "C27_double_roundtrip",
    "C27_string_roundtrip",
    "C27_array_header_roundtrip"
   ],
   "note": "Encoder (unparser, write_* helpers) against the incremental decoder for all nested values, and against the typed readers of class parser. Doubles are 64-bit patterns; integers are compared by value because the decoder may change signedness. Strings and containers shorter than 2^31."
  },
  {
   "property": "C28",
   "status": "proved",
   "theorems": [
    "C28_chunk_independence",
    "C28_chunked_roundtrip",
    "C28_windowed_read"
   ],
   "note": "feed_pieces (any division, empty pieces included) and the windowed reader both equal decoding at once: same parser state, same unconsumed bytes."
  },
  {
   "property": "C29",
   "status": "partial",
   "theorems": [
    "C29_skip_exact_partial",
    "C29_skip_stops_at_wide",
    "C29_skip_exact_refuted",
    "C29_logged_changes_partial",
    "C29_logged_changes_refuted"
   ],
   "note": "REFUTED as stated: skip_primitives does not know the 64-bit integer and double formats, so the position sticks at the first such value (proved exactly: C29_skip_stops_at_wide). Proved for all other primitives. Consequence for the server: a put with a 64-bit sequence number logs the whole request instead of the changes."
  },
  {
   "property": "C30",
   "status": "partial",
   "theorems": [
    "C30_bag_history",
    "C30_oversize_refuted",
    "C30_unsorted_refuted"
   ],
   "note": "History theorem for value_bag<uint16_t> (byte-exact memory): every column reads as last written, for every history of updates and replacements whose rows stay below 2^16 bytes and whose change sets name columns in increasing order. Without these two conditions the statement is false of the code: C30_oversize_refuted, C30_unsorted_refuted."
  },
  {
   "property": "C31",
   "status": "partial",
   "theorems": [
    "C31_array_history",
    "C31_versioned_history",
    "C31_first_snapshot",
    "C31_duplicate_column_refuted",
    "C31_short_refuted",
    "C31_versioned_timestamp_refuted",
    "C31_snapshot_releases_live_refuted",
    "C31_snapshot_index_refuted",
    "C31_snapshot_one"
   ],
   "note": "History theorems for value_array and value_versioned_array: columns read as last written and the released strings are exactly those no longer used, each once, for non-empty increasing change sets and fewer than 2^15 columns. False without: C31_duplicate_column_refuted, C31_short_refuted; in-place versioned updates keep the old timestamp, and snapshots of versioned rows can release live columns or index outside the row (C31_versioned_timestamp_refuted, C31_snapshot_releases_live_refuted, C31_snapshot_index_refuted). First snapshots show the row (C31_first_snapshot, C31_snapshot_one). The row-version protocol of versioned arrays under concurrency is C56."
  },
  {
   "property": "C32",
   "status": "partial",
   "theorems": [
    "C32_update_exact_partial",
    "C32_overread_refuted",
    "C32_gap_refuted",
    "C32_col_partial",
    "C32_col_refuted",
    "C32_create1",
    "C32_checkpoint"
   ],
   "note": "Exact characterisation of update (definedness, length, every byte), of reads of ranges, and of checkpoints. The full claim is false of the code: C32_overread_refuted (whole-value update longer than the old row, also row creation), C32_gap_refuted, C32_col_refuted (the empty range at 0 shows the whole row)."
  },
  {
   "property": "C33",
   "status": "partial",
   "theorems": [
    "C33_restores",
    "C33_server_restores",
    "C33_boundaries",
    "C33_null_child_refuted",
    "C33_duplicate_refuted",
    "C33_fewer_threads_refuted",
    "C33_more_threads",
    "C33_bag_row_checkpoint"
   ],
   "note": "Restoration of keys, rows and timestamps for any boundaries, any number of threads and any order of loading; once each if no boundary is empty; boundaries of the server are in order. False as stated for each key exactly once with an empty boundary, for a null child in findpv, and for a restart with fewer threads (refutations). Value_bag rows; updates during the checkpoint are the subject of C57."
  },
  {
   "property": "C34",
   "status": "partial",
   "theorems": [
    "C34_transparent_partial",
    "C34_buffer_partial",
    "C34_error_refuted",
    "C34_size_refuted"
   ],
   "note": "Proved for any mix of operations, capacities and kernel behaviour short of failing writes, as long as less than 2^31 bytes of space are asked for between flushes. The full statement is false: after a failed write bytes are sent twice (C34_error_refuted), and larger sizes wrap around in 32 bits (C34_size_refuted)."
  },
  {
   "property": "C35",
   "status": "partial",
   "theorems": [
    "C35_scan_partial",
    "C35_rscan_partial",
    "C35_count_refuted",
    "C35_client_scan_refuted"
   ],
   "note": "Forward and reverse range queries, for counts below 2^31, column numbers within 16 bits and keys within the scan's key buffer. A larger count is cut to 32 bits (C35_count_refuted). The client's sendscan violates a precondition of the server (C35_client_scan_refuted)."
  },
  {
   "property": "C36",
   "status": "partial",
   "theorems": [
    "C36_flushed_partial",
    "C36_report_partial",
    "C36_restored_partial",
    "C36_stall_refuted",
    "C36_quiescent_refuted",
    "C36_never_flushed_refuted"
   ],
   "note": "Proved: unsynced updates are at or above their log's flushed epoch; updates below it are restored if recovery replays their epoch. The full statement is false of max_flushed_epoch: a stalled update, a quiescent log that has not noticed a wake-up and a never flushed log are counterexamples (three _refuted theorems)."
  },
  {
   "property": "C37",
   "status": "partial",
   "theorems": [
    "C37_complete_datagram",
    "C37_datagram_own_bytes_refuted"
   ],
   "note": "REFUTED: udpgo parses the whole 4096-byte buffer instead of the bytes received, so a truncated request is completed with stale bytes. Complete requests are proved to be executed as sent."
  },
  {
   "property": "C38",
   "status": "partial",
   "theorems": [
    "C38_decoder_safe_partial",
    "C38_decoder_safe_refuted"
   ],
   "note": "REFUTED only for headers with a 32-bit length of 2^31 or more (length held in a signed int); proved safe on all other inputs."
  },
  {
   "property": "C39",
   "status": "partial",
   "theorems": [
    "C39_corrupt_log_partial",
    "C39_overread_refuted"
   ],
   "note": "Arbitrary bytes are read safely except for a modify record with fewer than 28 bytes left, which is read out of bounds (C39_overread_refuted)."
  },
  {
   "property": "C40",
   "status": "partial",
   "theorems": [
    "C40_kept_log",
    "C40_second_recovery_refuted"
   ],
   "note": "The kept log replays the same updates any number of times. Updates logged after a recovery can be lost by the next one, because a kept log may end with an epoch later than the one at which the server resumes (C40_second_recovery_refuted)."
  },
  {
   "property": "C41",
   "status": "partial",
   "theorems": [
    "C41_request_record_partial",
    "C41_parsed_record_refuted"
   ],
   "note": "The bytes path holds for requests produced by this encoder. The parsed path is false: record writes an array header that parse_changeset does not read."
  },
  {
   "property": "C42",
   "status": "partial",
   "theorems": [
    "C42_present_partial",
    "C42_absent_refuted",
    "C42_client_get_refuted"
   ],
   "note": "Present keys are answered with exactly the requested columns. The full statement is false: the reply to an absent key echoes the request and equals the reply for a row whose only column is the key (C42_absent_refuted); sendget violates a precondition of the server (C42_client_get_refuted)."
  },
  {
   "property": "C43",
   "status": "partial",
   "theorems": [
    "C43_get_refuted",
    "C43_lost_refuted",
    "C43_linearizable_partial",
    "C43_gets_puts_partial",
    "C43_no_deletion_partial"
   ],
   "note": "The full statement is false: C43_get_refuted, C43_lost_refuted. Proved without conditions on the tree for gets and puts, and for removals while no leaf is deleted; with deletions, for every run in which internode changes find their child where the separators say. No put is given up after a split. One layer; stores under a mark are one step."
  },
  {
   "property": "C44",
   "status": "partial",
   "theorems": [
    "C44_no_deadlock_partial",
    "C44_gets_puts_partial"
   ],
   "note": "No deadlock in every run in which internode changes find their child where the separators say and no put is given up after a split; that all operations can finish is proved for gets and puts. Finishing is possible, not guaranteed under every schedule (spin locks are not fair). One layer."
  },
  {
   "property": "C45",
   "status": "proved",
   "theorems": [
    "C45_layers_linearizable",
    "C45_can_finish"
   ],
   "note": "In the model in which operations within one layer are atomic (what C43 says of one layer, with its conditions). Layers made and collected at any time, any number of threads. The locks a put holds on the leaf of a new layer and a collector on its leaf are weaker in the model (one row, or none), which allows more schedules."
  },
  {
   "property": "C46",
   "status": "partial",
   "theorems": [
    "C46_scan_refuted",
    "C46_scan_partial",
    "C46_scan_gets_puts_partial",
    "C46_scan_no_deletion_partial"
   ],
   "note": "False in general (C46_scan_refuted, same cause as C43). Proved for every run in which internodes have their children where separators say and no put is given up after a split; without condition on the tree beside gets and puts, and beside removals that delete no leaf. One layer only: scan_down and scan_up are covered sequentially by C04."
  },
  {
   "property": "C47",
   "status": "partial",
   "theorems": [
    "C47_text_parsed_partial",
    "C47_accepted_partial",
    "C47_escape_refuted",
    "C47_nul_escape_refuted",
    "C47_surrogate_refuted",
    "C47_trailing_space_refuted",
    "C47_big_integer_refuted",
    "C47_not_json_refuted",
    "C47_duplicate_names_refuted"
   ],
   "note": "Proved for the grammar with rfc = false: all of RFC 8259 except the escapes of U+0000, U+0800 to U+7FFF, U+FFFE and U+FFFF, surrogate pairs with a lower-case second unit, integers from 2^64 or up to -2^63, duplicate names, more than one byte of trailing white space, and nesting above 2048. The parts left out are refuted. strtod is a parameter. That accepted texts are JSON is refuted; proved instead is that they are of the grammar of Spec_JsonLax, which says exactly what else is taken and with which value."
  },
  {
   "property": "C48",
   "status": "partial",
   "theorems": [
    "C48_text_roundtrip_partial",
    "C48_text_json_partial",
    "C48_nul_refuted",
    "C48_line_separator_refuted",
    "C48_smallest_integer_refuted"
   ],
   "note": "The round trip is proved for values without doubles whose strings are UTF-8 without U+0000, U+2028, U+2029, whose integers are above -2^63 and whose object keys are distinct, for every manipulator with non-negative tab width and nesting up to 2048. The other strings and -2^63 are refuted; the fault is the parser's, since what is written for them too is JSON for the value (C48_text_json_partial). Doubles are printed with %.12g and are not modelled."
  },
  {
   "property": "C49",
   "status": "partial",
   "theorems": [
    "C49_pieces_partial",
    "C49_document_in_pieces_partial",
    "C49_accepted_in_pieces_partial",
    "C49_pieces_refuted",
    "C49_refusal_refuted"
   ],
   "note": "Proved for all texts and cuts unless a piece ends in the byte E0, ED, F0 or F4 (undefined, refuted); a refused text may be reported as unfinished (refuted as an equality). What is accepted in pieces is of the grammar of Spec_JsonLax. Error positions are not modelled."
  },
  {
   "property": "C50",
   "status": "partial",
   "theorems": [
    "C50_defined_partial",
    "C50_smallest_integer_refuted",
    "C50_depth_limit_refuted"
   ],
   "note": "Definedness is proved for all bytes and cuts except the two cases that are refuted (a piece ending in E0, ED, F0, F4; the smallest integer). The nesting limit is refuted for every bound. Memory use and recursion depth of destructors are not modelled."
  },
  {
   "property": "C51",
   "status": "partial",
   "theorems": [
    "C51_values_partial",
    "C51_ordinary",
    "C51_repaired",
    "C51_mutable_refuted",
    "C51_transfer_refuted",
    "C51_unique_refuted",
    "C51_substr_refuted"
   ],
   "note": "Proved for every program without mutable_data and make_transfer (C51_ordinary), and for programs with them if they are called on Strings that share their buffer with no other variable (C51_values_partial); without that condition refuted, since is_shared is inverted. C51_repaired proves all programs for the model with the test turned round. Two more claims of the documentation (unique, substr with large positions) are refuted. Lengths up to 2^30-12, fewer than 2^32 Strings; out-of-memory strings and threads sharing one buffer are not modelled."
  },
  {
   "property": "C52",
   "status": "partial",
   "theorems": [
    "C52_memory_partial"
   ],
   "note": "The same programs as C51. That no buffer is used or freed after it is freed is part of C51 (such a run is Bad)."
  },
  {
   "property": "C53",
   "status": "proved",
   "theorems": [
    "C53_exclusive",
    "C53_reuse",
    "C53_zero_refuted"
   ],
   "note": "C53_zero_refuted: size 0 would read pool_[-1]; no caller asks for it. The system's answers are assumed fresh, aligned and not null."
  },
  {
   "property": "C54",
   "status": "proved",
   "theorems": [
    "C54_leaf_sizes"
   ],
   "note": "sizeof(leaf) is a parameter of at most 1152 bytes."
  },
  {
   "property": "C55",
   "status": "partial",
   "theorems": [
    "C55_destroy_partial",
    "C55_leak_refuted",
    "C55_repaired",
    "C55_marked",
    "C55_late_gc_refuted"
   ],
   "note": "destroy never fails and frees only the table's nodes, after all histories; it frees all of them if no layer pointer is behind a split (C55_destroy_partial), otherwise it leaks (C55_leak_refuted); with the missing climb the property holds (C55_repaired). Pending collections do nothing once the tree is marked (C55_marked) but one that runs after the nodes are freed reads freed memory (C55_late_gc_refuted). Concurrent users of the table being destroyed are not modelled."
  },
  {
   "property": "C56",
   "status": "partial",
   "theorems": [
    "C56_get_partial",
    "C56_get_inside",
    "C56_absent_refuted",
    "C56_value",
    "C56_update_runs",
    "C56_get_ends",
    "C56_wrap_refuted",
    "C56_get1_refuted",
    "C56_get1_null_refuted"
   ],
   "note": "Full for gets through run_get during which fewer than 2^31 - 1 updates begin and which do not ask for one absent column. Refuted beyond: the 31-bit version wraps, one-column gets are not checked against the number of columns, run_get1 reads the shared row without the version. Memory is sequentially consistent and released rows are taken to stay (C17)."
  },
  {
   "property": "C57",
   "status": "partial",
   "theorems": [
    "C57_history",
    "C57_restored_partial",
    "C57_repaired",
    "C57_race_refuted",
    "C57_later_refuted"
   ],
   "note": "Full, for any interleaving, scan order and replay order, for runs in which no thread holds an epoch that is over when a checkpoint starts; without that condition false (C57_race_refuted, C57_later_refuted), and true again for the code repaired by taking each log's lock once (C57_repaired). Missing: removals (C24), change sets that do not fit a marker (C23), wrap of epochs."
  },
  {
   "property": "C58",
   "status": "partial",
   "theorems": [
    "C58_logs_partial",
    "C58_checkpoint_partial",
    "C58_first_refuted",
    "C58_held_refuted",
    "C58_unflushed_refuted",
    "C58_asleep_refuted",
    "C58_more_logs_refuted",
    "C58_fewer_logs_refuted"
   ],
   "note": "Proved: without a checkpoint recovery stops at no check for any crash of any run (C58_logs_partial), and from a committed checkpoint it starts and replays beyond the checkpoint's last epoch if no log was asleep since the checkpoint ended, every log had been flushed and began before the checkpoint (C58_checkpoint_partial). The statement without these conditions is false of the code, one witness per condition (C58_first, C58_held, C58_unflushed, C58_asleep, C58_more_logs, C58_fewer_logs _refuted). Missing: updates that stall for a full buffer."
  },
  {
   "property": "C59",
   "status": "partial",
   "theorems": [
    "C59_safe",
    "C59_contents",
    "C59_crash",
    "C59_fifo",
    "C59_progress_partial",
    "C59_big",
    "C59_returns_refuted",
    "C59_overtake_refuted"
   ],
   "note": "Proved for all runs: no store outside the buffer and no stale list entry (C59_safe), contents of file, write and buffer (C59_contents), crash contents and durability (C59_crash), order among the calls that wait (C59_fifo). That every call returns is false: larger than the buffer (C59_big, C59_returns_refuted), overtaken by newcomers (C59_overtake_refuted); C59_progress_partial shows that calls which fit can always be finished. Not modelled: the lock itself, failing writes."
  },
  {
   "property": "C60",
   "status": "partial",
   "theorems": [
    "C60_values_partial",
    "C60_objects_partial",
    "C60_alias_refuted",
    "C60_repaired_partial",
    "C60_zero_refuted",
    "C60_size_refuted"
   ],
   "note": "Proved for all programs without a push_back of an element of the same vector and with at most 2^30 elements per vector: no undefined step and the right sequences (C60_values_partial), exact accounting of objects and storage (C60_objects_partial). The rest of the claim is false: aliased push_back on a full vector (C60_alias_refuted, repaired in C60_repaired_partial), N = 0 (C60_zero_refuted), capacity 2^31 (C60_size_refuted)."
  },
  {
   "property": "C61",
   "status": "partial",
   "theorems": [
    "C61_one_disk_partial",
    "C61_two_disks_refuted",
    "C61_unordered_refuted",
    "C61_durable_refuted",
    "C61_repaired",
    "C61_safe_write"
   ],
   "note": "Proved for the code with all checkpoint directories on one disk that keeps directory changes in order: a whole checkpoint is always found, though maybe an older one (C61_one_disk_partial). The full claim is false: two disks (C61_two_disks_refuted), unordered changes (C61_unordered_refuted), loss of a committed checkpoint (C61_durable_refuted). It is proved in full of a commit that syncs the directories (C61_repaired). Writes: C61_safe_write."
  },
  {
   "property": "C62",
   "status": "partial",
   "theorems": [
    "C62_find_left",
    "C62_find_right_partial",
    "C62_find_right_refuted",
    "C62_find_right_repaired",
    "C62_glob_partial",
    "C62_class_refuted",
    "C62_glob_out_refuted",
    "C62_glob_repaired"
   ],
   "note": "find_left in full; find_right and glob_match where the code is right, with witnesses where it is not (classes, reads outside of the arguments) and the repaired loops for all arguments."
  },
  {
   "property": "C63",
   "status": "partial",
   "theorems": [
    "C63_encode_partial",
    "C63_long_refuted",
    "C63_decode_partial",
    "C63_round_trip_partial",
    "C63_unique_refuted",
    "C63_uri"
   ],
   "note": "Encoder, decoder and round trip for all strings for which the reservation does not overflow, URI components for all strings; witnesses for the overflow (C63_long_refuted) and for texts that are accepted beside the one written (C63_unique_refuted)."
  },
  {
   "property": "C64",
   "status": "partial",
   "theorems": [
    "C64_equal",
    "C64_numbers",
    "C64_antisym_partial",
    "C64_antisym_refuted",
    "C64_transitive_refuted",
    "C64_transitive_digits_refuted",
    "C64_text",
    "C64_fractions_partial",
    "C64_fractions_refuted",
    "C64_parts",
    "C64_classes",
    "C64_fractions_text_partial"
   ],
   "note": "Totality, equality, texts without digits, numbers and parts of IP addresses are proved in full. Fractions are in order if neither is 0 and they begin with the same number of zeros (any number in the repaired code); \"1.001\" < \"1.0\" is a witness otherwise. Antisymmetry is false for fractions (witness \"1.0\"/\"1.1\") and proved where one string has no period and for the repaired line 203. Transitivity is false: cycles are given for the code and for the repaired code."
  },
  {
   "property": "C65",
   "status": "partial",
   "theorems": [
    "C65_hash_partial",
    "C65_hash_refuted",
    "C65_to_i",
    "C65_to_i_other",
    "C65_to_i_refuted"
   ],
   "note": "Independence of the address is proved for x86 and big endian machines and false for other little endian machines (witness \"ab\"). to_i is exact for integers a long can hold and gives the remainder otherwise (witness 2^64 read as 0); other strings give 0."
  },
  {
   "property": "C66",
   "status": "partial",
   "theorems": [
    "C66_timestamp_partial",
    "C66_timestamp_refuted",
    "C66_order",
    "C66_sub_partial",
    "C66_sub_refuted"
   ],
   "note": "Proved for seconds below 2^32 and timestamps with microseconds below a million; witnesses for the wrap-around in 2106 and for timestamps that update_timestamp has counted past 999999 microseconds."
  },
  {
   "property": "C67",
   "status": "partial",
   "theorems": [
    "C67_object_partial",
    "C67_object_refuted",
    "C67_space_refuted",
    "C67_returns_partial",
    "C67_erased_refuted",
    "C67_erase_at_partial"
   ],
   "note": "Map, order, size, lookups and the results of erase and insert are proved for all sequences of calls and all hash functions unless the first call is an erase, which indexes an empty vector (witness; covered with the repair). The claim on space is false: the table is exponential in the number of keys with equal hash codes, and erased items are never reused."
  }
 ]
}