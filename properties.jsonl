{"id": "C01", "title": "Table is a finite map on byte strings", "statement": "Whatever sequence of inserts, overwrites, removals and lookups one thread performs on a table, every lookup returns the value of the most recent insert/overwrite of exactly that key if the key has not been removed since, and 'not found' otherwise; no operation on one key changes the result for another key, even when operations force nodes to split, new trie layers to appear, or emptied nodes and layers to be unlinked.", "quantifier": "all finite operation sequences, all keys (any bytes including NUL, any length), all values", "why_tests_cant": "the interesting states (splits at every level, deep shared prefixes, nodes emptied in any order) form an unbounded set; a test visits finitely many histories", "anchors": ["masstree_get.hh: basic_table::get, unlocked_tcursor::find_unlocked, tcursor::find_locked", "masstree_insert.hh: find_insert, make_new_layer, finish_insert", "masstree_split.hh: make_split", "masstree_remove.hh: finish_remove, remove_leaf, gc_layer", "masstree_struct.hh: reach_leaf"]}
{"id": "C02", "title": "Insert/remove report presence correctly", "statement": "The cursor call that positions on a key for writing reports 'found' exactly when the key is present in the table at that point, and an insert that is abandoned (finish with 0) leaves the set of keys and values unchanged.", "quantifier": "all reachable tables, all keys, all finish states", "why_tests_cant": "abandoned inserts can leave half-used slots, empty nodes and fresh layers behind; whether these ever become visible depends on the whole later history", "anchors": ["masstree_insert.hh: find_insert, finish", "masstree_tcursor.hh: tcursor"]}
{"id": "C03", "title": "Distinct keys never collide", "statement": "Two keys are treated as the same key only if they are the same byte string: keys that agree on zero-padded 8-byte slices, that are prefixes of each other, or that differ only in trailing NUL bytes stay distinct.", "quantifier": "all pairs of byte strings", "why_tests_cant": "infinitely many pairs; slices are compared as zero-padded integers so the boundary cases depend on length bookkeeping at every layer depth", "anchors": ["masstree_key.hh: key::key, key::compare, key::shift", "string_slice.hh: make_comparable", "masstree_struct.hh: ksuf_matches, ksuf_equals"]}
{"id": "C04", "title": "Forward scan is complete, ordered and duplicate free", "statement": "A forward scan from a start key calls the visitor on exactly the present keys that are >= the start (or > it when the start is excluded), in increasing lexicographic byte order, each once and with its current value, until the visitor asks to stop; the reported key bytes are the full original key.", "quantifier": "all reachable tables, all start keys, both inclusive and exclusive, all visitor stopping points", "why_tests_cant": "the scan walks an explicit stack of layers and leaf links; its loop states combine with every shape of tree", "anchors": ["masstree_scan.hh: basic_table::scan, scanstackelt::find_initial, find_next, forward_scan_helper"]}
{"id": "C05", "title": "Reverse scan mirrors the forward scan", "statement": "A reverse scan from a start key visits exactly the present keys that are <= the start (or < it when excluded), in decreasing lexicographic order, each once, until told to stop.", "quantifier": "all reachable tables, all start keys, both inclusive and exclusive, all stopping points", "why_tests_cant": "same unbounded state space as the forward scan, with different boundary arithmetic at every layer", "anchors": ["masstree_scan.hh: basic_table::rscan, reverse_scan_helper"]}
{"id": "C06", "title": "Slice order is byte-string order", "statement": "Comparing keys slice by slice (8 bytes at a time as big-endian integers, then by remaining length) gives exactly the lexicographic byte order in which a proper prefix sorts first.", "quantifier": "all pairs of byte strings of any length", "why_tests_cant": "a test compares finitely many pairs; the property is about every length and byte value, at every layer depth", "anchors": ["masstree_key.hh: key::compare", "string_slice.hh: make_comparable", "str.hh", "string_base.hh: compare"]}
{"id": "C07", "title": "Structural cleanup is invisible", "statement": "Unlinking emptied leaves, collapsing interior nodes and reclaiming an emptied trie layer (including the deferred reclamation callback run at any later time, for any key prefix) never changes the result of any lookup or scan.", "quantifier": "all reachable tables, all times at which a reclamation is performed, all prefixes", "why_tests_cant": "reclamation is delayed and interleaves with an arbitrary later history", "anchors": ["masstree_remove.hh: remove_leaf, redirect, gc_layer, gc_layer_rcu_callback"]}
{"id": "C08", "title": "Single-threaded operations never get stuck", "statement": "No sequence of operations leads the code to dereference a null child or parent, to violate one of its internal assertions or to loop forever: every operation on a reachable table terminates with a result.", "quantifier": "all finite operation sequences from the empty table", "why_tests_cant": "assertion failures need particular tree shapes; tests only show absence on the shapes they build", "anchors": ["masstree_struct.hh", "masstree_split.hh", "masstree_remove.hh", "masstree_get.hh"]}
{"id": "C09", "title": "Interior and border nodes keep their routing invariants", "statement": "In every reachable table each key is stored in the one border node that a descent for this key reaches, neighbours in the border list cover adjacent key ranges, and list order agrees with tree order.", "quantifier": "all reachable tables", "why_tests_cant": "it is an invariant over every history, not a property of one output", "anchors": ["masstree_struct.hh: leaf, internode, reach_leaf, advance_to_key", "btree_leaflink.hh"]}
{"id": "C10", "title": "Packed permutation obeys its documented contract", "statement": "Each operation on the packed key permutation (insert from back, insert selected, remove, remove to back, exchange, exchange values, make sorted/empty) yields the permutation and size described in its documentation, the result is again a permutation of all slots, and no slot is lost or duplicated.", "quantifier": "all widths 1..15, all permutations and sizes, all positions", "why_tests_cant": "15! * 16 states per width; shift amounts reach the word size at the extremes", "anchors": ["kpermuter.hh: kpermuter"]}
{"id": "C11", "title": "Node search returns the right position", "statement": "Searching a node's sorted keys by the binary or the linear method returns the same answer: the exact position when the key is present, otherwise the position where it belongs; the upper-bound search returns the number of keys not greater than the search key.", "quantifier": "all node sizes, all sorted contents, all search keys", "why_tests_cant": "loop arithmetic over all sizes and positions and through an arbitrary slot permutation", "anchors": ["ksearch.hh: key_lower_bound, key_upper_bound, key_bound_binary, key_bound_linear"]}
{"id": "C12", "title": "Key-suffix bags return what was stored", "statement": "After any sequence of stores of suffix strings into the numbered slots of a suffix bag, each slot returns the string most recently stored successfully in it; a store that is refused changes nothing, and no store writes outside the bag.", "quantifier": "all widths, capacities and sequences of stores with any lengths", "why_tests_cant": "allocation positions depend on the entire history; narrow integer offsets wrap only at particular totals", "anchors": ["stringbag.hh: stringbag::assign, get, safe_size", "masstree_struct.hh: leaf::assign_ksuf"]}
{"id": "C13", "title": "Version words never hide a change", "statement": "If a node was changed (insert or split completed) between two reads of its version, the comparison used by readers reports a change, unless the counters wrapped all the way around in between; a split is always reported as a split; and an unchanged node is reported unchanged.", "quantifier": "all version words, all finite sequences of lock/mark/unlock", "why_tests_cant": "the counter fields overflow into one another; only arithmetic over all words shows what happens at every carry", "anchors": ["nodeversion.hh: basic_nodeversion::unlock, has_changed, has_split, mark_insert, mark_split, mark_deleted"]}
{"id": "C14", "title": "Node lock is mutually exclusive", "statement": "At most one thread holds a node's lock at a time under any interleaving of the lock/try-lock/unlock steps, a thread that observes a stable version never observes a version in the middle of a modification, and unlocking preserves the node-kind bits.", "quantifier": "all numbers of threads, all schedules", "why_tests_cant": "the schedules are unbounded; races are not reproducible", "anchors": ["nodeversion.hh: lock, try_lock, unlock, stable, stable_annotated"]}
{"id": "C15", "title": "Lock-free readers see atomic node states", "statement": "A reader that reads a node's permutation, keys and values without locking while a writer inserts, removes and overwrites, and accepts the result only when the version it read before and after is unchanged, returns an answer that was true of the node at some moment during the read.", "quantifier": "all numbers of readers and writers, all interleavings of their individual memory accesses (sequentially consistent)", "why_tests_cant": "requires every interleaving of individual loads and stores", "anchors": ["masstree_get.hh: find_unlocked", "masstree_insert.hh: finish_insert", "masstree_remove.hh: finish_remove"]}
{"id": "C16", "title": "Border-node list stays well linked under concurrency", "statement": "Under any interleaving of node splits (linking a new right neighbour) and node removals performed by different threads on a doubly-linked border list, the forward links always form a list of exactly the live nodes in order, and when no operation is in progress the backward links mirror the forward links.", "quantifier": "all schedules of any number of link and unlink operations", "why_tests_cant": "pairs of adjacent operations interleave at the level of individual compare-and-swap steps", "anchors": ["btree_leaflink.hh: link_split, unlink, lock_next"]}
{"id": "C17", "title": "Epoch reclamation never frees memory in use", "statement": "If an object is unreachable from the shared structure before it is handed to deferred reclamation, then it is not freed while any thread that could have obtained a reference to it is still inside the critical section in which it obtained it.", "quantifier": "all numbers of threads, all schedules of critical-section entry and exit, epoch ticks, unlink, retire and collect steps", "why_tests_cant": "needs an adversarial schedule spanning several epoch ticks", "anchors": ["kvthread.hh: rcu_start, rcu_stop, rcu_quiesce, record_rcu, min_active_epoch", "kvthread.cc: hard_rcu_quiesce, limbo_group::clean_until", "mtd.cc: epochinc"]}
{"id": "C18", "title": "Deferred frees happen exactly once and in order", "statement": "Every object handed to deferred reclamation is released at most once, only objects handed over are released, objects are released in the order they were handed over, and repeated collection after the epoch has passed releases all of them, independently of how collection calls split the work into batches.", "quantifier": "all sequences of retire/epoch/collect calls, all batch limits", "why_tests_cant": "the queue is chunked and its head entry is rewritten in place; batch boundaries can fall anywhere", "anchors": ["kvthread.hh: limbo_group, record_rcu", "kvthread.cc: limbo_group::clean_until, refill_rcu, hard_rcu_quiesce"]}
{"id": "C19", "title": "Versions of one key carry strictly increasing timestamps", "statement": "The timestamps assigned to successive updates of the same key - by any threads, including an insert that follows a removal - strictly increase, so a log replay ordered by timestamp agrees with the order in which the updates took effect.", "quantifier": "all histories of puts, replaces and removes by any number of threads on any keys", "why_tests_cant": "removed keys leave no row behind; ordering then depends on per-node bookkeeping through splits, merges and layer reclamation", "anchors": ["query_masstree.hh / query_masstree.cc: apply_put, apply_replace, apply_remove, assign_timestamp", "kvthread.hh: update_timestamp, observe_phantoms", "masstree_struct.hh: phantom_epoch"]}
{"id": "C20", "title": "Circular comparison orders nearby counters", "statement": "Wrapping counters compare in the order in which they were issued as long as they are less than half the range apart; the comparison is then irreflexive, asymmetric and transitive, and the 'next nonzero' step never yields zero.", "quantifier": "all counter values and all offsets below half the range", "why_tests_cant": "only arithmetic on all words covers wrap-around", "anchors": ["circular_int.hh: circular_int"]}
{"id": "C21", "title": "Log records survive a round trip", "statement": "Any record written to the log (put, replace, modify, remove, epoch, quiesce, wake) is decoded as the same command, key, value, timestamps and epoch, and the decoder ends exactly at the end of the record.", "quantifier": "all commands, keys, values, timestamps and epochs that fit the length fields", "why_tests_cant": "field offsets, padding and lengths vary over an unbounded input space", "anchors": ["log.hh: logrec_base, logrec_epoch, logrec_kv, logrec_kvdelta, logset", "log.cc: loginfo::record, logrecord::extract"]}
{"id": "C22", "title": "A torn log tail loses only its incomplete record", "statement": "If a log file is cut at an arbitrary byte (crash while writing), decoding it from the start yields exactly the records that lie completely before the cut, and reads no byte beyond the cut.", "quantifier": "all record sequences and all cut points", "why_tests_cant": "every byte offset of every log is a possible crash point", "anchors": ["log.cc: logrecord::extract, logreplay::info, replayandclean1"]}
{"id": "C23", "title": "Replay of one key converges to the newest update", "statement": "When the full-value records (replace and remove) and dependent records (modify) of one key are spread over several logs and replayed in any order, the key ends with the state obtained by applying them in timestamp order.", "quantifier": "all sets of records of a key with distinct timestamps forming a valid history, all replay orders", "why_tests_cant": "replay order is decided by thread scheduling; n! orders", "anchors": ["log.cc: logrecord::apply, logrecord::run", "kvrow.hh: row_marker, row_delta_marker"]}
{"id": "C24", "title": "A logged removal is replayed as a removal", "statement": "After a crash, a removal that reached the log is replayed so that the key is reported absent.", "quantifier": "all keys and timestamps", "why_tests_cant": "needs the record format, the changeset parser and the row representation together; the parser's behaviour on marker bytes depends on memory outside the record", "anchors": ["log.cc: logrecord::run, logrecord::apply, parse_changeset", "mtd.cc: onego"]}
{"id": "C25", "title": "Every logged update is replayed", "statement": "Replaying a log applies every update record whose epoch lies in the recovered range, whatever its key.", "quantifier": "all logs, all keys", "why_tests_cant": "a key shape can be silently skipped; only reasoning over all keys shows which", "anchors": ["log.cc: logreplay::replayandclean1", "log.cc: loginfo::record (both overloads), parse_changeset"]}
{"id": "C26", "title": "Recovery keeps a prefix-closed set of updates", "statement": "The set of updates that recovery keeps is determined by an epoch cut: no log has lost an update from an epoch that is kept, and all updates from kept epochs that reached their logs are kept.", "quantifier": "all numbers of logs, all crash points, all flush orders, with quiescent and woken-up logs", "why_tests_cant": "the cut combines per-log minima and maxima with quiescence rules; crashes can hit any subset of logs at any point", "anchors": ["mtd.cc: recover", "log.cc: logreplay::info, min_post_quiescent_wake_epoch, replayandclean1", "log.hh: loginfo"]}
{"id": "C27", "title": "Message encoding round trips", "statement": "Every integer, string, boolean, null, array and object written by the message encoder is decoded to the same value, consuming exactly the bytes written.", "quantifier": "all values of the wire types, nested to any depth", "why_tests_cant": "format choice changes at many boundaries over a 64-bit domain and unbounded nesting", "anchors": ["msgpack.hh: compose, parser", "msgpack.cc: unparser, streaming_parser"]}
{"id": "C28", "title": "Streaming decode does not depend on chunk boundaries", "statement": "Feeding a byte stream to the incremental decoder in any division into pieces gives the same value, the same success or failure, and the same number of consumed bytes as feeding it at once.", "quantifier": "all byte streams and all ways to cut them", "why_tests_cant": "network fragmentation can fall at any byte; 2^n divisions", "anchors": ["msgpack.cc: streaming_parser::consume", "msgpack.hh: streaming_parser"]}
{"id": "C29", "title": "Skipping primitives skips exactly the given number of values", "statement": "Skipping n primitive values in an encoded message leaves the decoder exactly behind the n-th value.", "quantifier": "all sequences of encoded primitive values, all n", "why_tests_cant": "each of the 256 leading bytes has its own length rule", "anchors": ["msgpack.hh: parser::skip_primitives", "mtd.cc: onego"]}
{"id": "C30", "title": "Column update changes exactly the named columns (bag rows)", "statement": "Updating a row with a set of (column, value) pairs yields a row in which each named column has the new value, each other column has its former value, columns up to the largest named one exist, and the new row carries the new timestamp.", "quantifier": "all rows, all strictly increasing sets of column updates", "why_tests_cant": "offset tables and in-place fast paths depend on all lengths; offsets are 16 bits wide", "anchors": ["value_bag.hh: value_bag::update, create, col"]}
{"id": "C31", "title": "Column update changes exactly the named columns (array rows)", "statement": "For rows stored as arrays of column strings, an update yields exactly the named columns replaced, other columns kept, and precisely the replaced strings are released.", "quantifier": "all rows and update sets", "why_tests_cant": "release of shared column strings depends on which columns were replaced over the whole history", "anchors": ["value_array.hh, value_array.cc: value_array::update, deallocate_rcu_after_update, deallocate_after_failed_update", "value_versioned_array.hh/.cc: update, snapshot"]}
{"id": "C32", "title": "Byte-range update of string rows", "statement": "For rows stored as one string, updating a byte range writes exactly these bytes, keeps the other bytes, extends the row when the range goes beyond its end, and reads only bytes of the old row. A column named by an offset and a length shows just the bytes of the row in that range, and a row comes back from a checkpoint as it was.", "quantifier": "all rows, all ranges", "why_tests_cant": "out-of-bounds reads are invisible to functional tests and depend on offset/length combinations", "anchors": ["value_string.hh: value_string::update, create, create1, col, make_index, checkpoint_read, checkpoint_write"]}
{"id": "C33", "title": "Checkpoint then load restores the table", "statement": "Writing a checkpoint of a quiescent table and loading it yields the same keys, values and timestamps, each key exactly once, for any number of checkpoint threads and any choice of partition boundaries.", "quantifier": "all tables, all numbers of partitions", "why_tests_cant": "the partition pivots are computed from the data; boundary pivots (empty strings) have a special meaning", "anchors": ["checkpoint.cc: ckstate::insert, visit_leaf, write_checkpoint", "mtd.cc: read_checkpoint, conc_checkpointer, recovercheckpoint", "masstree_scan.hh"]}
{"id": "C34", "title": "Output buffering is transparent", "statement": "The bytes delivered to a connection are exactly the concatenation of everything written to its output buffer, in order, for any mix of write sizes, buffer capacities and flushes.", "quantifier": "all sequences of writes and flushes, all capacities", "why_tests_cant": "buffer growth and flush points depend on every size combination", "anchors": ["kvio.hh, kvio.cc: kvout, kvwrite, kvflush"]}
{"id": "C35", "title": "Range queries honour start, count and column selection", "statement": "A range query with start key k and count n returns the first n present keys >= k (or <= k in reverse) with the requested columns, and fewer only if there are no more keys.", "quantifier": "all tables, start keys, counts and column lists", "why_tests_cant": "combines scanning with visitor bookkeeping over unbounded tables", "anchors": ["query_masstree.hh / query_masstree.cc: run_scan, run_rscan, visit_value", "masstree_scan.hh"]}
{"id": "C36", "title": "Durability is reported only for flushed epochs", "statement": "Once an update is reported durable (its epoch is at or below the reported flushed epoch), recovery after a crash at any later point restores it.", "quantifier": "all schedules of appends, flushes and epoch advances, all crash points", "why_tests_cant": "depends on the joint order of buffer swaps, flushes and epoch increments", "anchors": ["log.hh: loginfo, logset", "log.cc: loginfo::acquire, logger loop, record", "checkpoint.cc: max_flushed_epoch"]}
{"id": "C37", "title": "A datagram request is executed from its own bytes only", "statement": "The request the server executes for a UDP datagram is a function of the bytes of that datagram: a complete request is executed as sent, an incomplete one is rejected, whatever earlier datagrams contained.", "quantifier": "all datagrams and all earlier contents of the receive buffer", "why_tests_cant": "depends on what earlier datagrams left in the buffer at the exact truncation point", "anchors": ["mtd.cc: udpgo", "msgpack.hh: streaming_parser::reset", "msgpack.cc: streaming_parser::consume"]}
{"id": "C38", "title": "The message decoder is safe on arbitrary bytes", "statement": "On any byte stream, in any division into pieces, the incremental decoder ends in success, failure or an incomplete state without undefined behaviour: no invalid pointer into the value under construction, no negative or overflowing size.", "quantifier": "all byte streams and all ways to cut them", "why_tests_cant": "the input is under a remote peer's control; the stack of pointers into a growing value must be valid after every prefix", "anchors": ["msgpack.cc: streaming_parser::consume", "msgpack.hh: streaming_parser, format::nbytes"]}
{"id": "C39", "title": "Reading a corrupt log stays inside the file", "statement": "Decoding a log file with arbitrary contents (bit rot, a partially overwritten or preallocated tail) reads no byte outside the file: it yields records up to the first malformed one and stops.", "quantifier": "all byte strings", "why_tests_cant": "The space of corrupt files is unbounded and an over-read of a few bytes behind a memory-mapped file is normally invisible (it falls in the same page), so only a proof over all byte strings shows which inputs are safe.", "anchors": ["log.cc:442-490", "log.cc:692-756"]}
{"id": "C40", "title": "Recovery can be repeated", "statement": "The log files that recovery leaves behind hold every update it replayed and nothing from later epochs, so a crash during or right after recovery, any number of times, recovers the same updates; and updates logged after a recovery are recovered by the next one.", "quantifier": "all logs, all numbers of recoveries, all updates logged in between", "why_tests_cant": "It needs a crash during or shortly after recovery, with particular relations between the epochs of several log files; the loss shows only after the second recovery.", "anchors": ["log.cc:692-830", "mtd.cc:1353-1497"]}
{"id": "C41", "title": "A logged put can be replayed, however the server came by its arguments", "statement": "The change set stored in the log for a put or modify is read back at replay as exactly the column changes the client asked for, both when the server logs the bytes of the request and when it logs the parsed arguments.", "quantifier": "all change sets, all request encodings, both logging paths", "why_tests_cant": "the writer and the reader are in different files and the reader runs only after a crash; the two logging paths differ in framing", "anchors": ["log.cc: loginfo::record, parse_changeset", "mtd.cc: onego, kvtest_client::put_col", "msgpack.hh"]}
{"id": "C42", "title": "A get reply tells whether the key is present", "statement": "The server's reply to a get lets the client tell an absent key from a present one, and for a present key it holds exactly the requested columns in order (all columns if none is named).", "quantifier": "all tables, keys and column selections", "why_tests_cant": "the reply to an absent key must differ from the reply to every possible row", "anchors": ["kvrow.hh: run_get, emit_fields", "mtd.cc: onego", "mtclient.hh: sendget, sendgetcol, sendgetwhole", "mtclient.cc: get"]}
{"id": "C43", "title": "Concurrent operations in one layer are linearizable", "statement": "When any number of threads run get, put and remove on keys of one layer, every get returns the value the key had at some moment between its call and its return; every put and remove changes exactly its own key, at one moment between call and return, and reports the value the key had just before; the table changes at no other moment.", "quantifier": "all numbers of threads, all keys and values, all schedules of single memory accesses (sequentially consistent), including any sequence of leaf and internode splits, leaf removals and internode collapses", "why_tests_cant": "the outcome depends on the interleaving of readers with splits and removals; the schedules are unbounded and the bad ones need several stalled threads", "anchors": ["masstree_struct.hh: reach_leaf, advance_to_key, stable_last_key_compare, locked_parent", "masstree_get.hh: find_unlocked, find_locked", "masstree_insert.hh: find_insert, finish_insert", "masstree_split.hh: make_split, split_into", "masstree_remove.hh: finish_remove, remove_leaf, redirect"]}
{"id": "C44", "title": "Concurrent operations in one layer do not deadlock and can finish", "statement": "When any number of threads run get, put and remove on keys of one layer, then whenever an operation is under way some operation under way can take a step, and from every state reached the operations under way can all return without any new one being started: no thread waits forever for a lock or a stable version, and none is caught in a loop it can never leave.", "quantifier": "all numbers of threads, all keys and values, all reachable states of all schedules of single memory accesses (sequentially consistent), including any nesting of splits that hold locks on several levels", "why_tests_cant": "a deadlock needs a particular set of threads holding locks on several levels at once; tests only ever see a few of the unbounded number of lock patterns and a hang cannot be told from slowness", "anchors": ["nodeversion.hh: lock, unlock, stable", "masstree_struct.hh: locked_parent, reach_leaf, advance_to_key", "masstree_split.hh: make_split", "masstree_remove.hh: remove_leaf, redirect"]}
{"id": "C45", "title": "Concurrent operations on keys of any length are linearizable across layers", "statement": "Keys longer than eight bytes live in layers that are made when two keys share a slice and collected when they are empty. Provided that finding, writing and removing a row within one layer is atomic, gets, puts and removes of any number of threads are linearizable: there is a sequence of tables such that every operation reports the table's entry for its key at one moment between call and return, puts and removes change exactly their key at that moment, and making or collecting layers changes no entry. No operation is lost in a layer that is collected under it, and every operation can finish.", "quantifier": "all numbers of threads, all keys of any length, all schedules of layer-level steps, any number of layers made and collected, puts given up at any point", "why_tests_cant": "a lost update needs a thread stalled inside a layer while others empty it, collect it and reinsert the key above; the depth of nesting and the number of stalled threads are unbounded", "anchors": ["masstree_get.hh: find_unlocked, find_locked (deleted_layer)", "masstree_insert.hh: find_insert, make_new_layer, finish", "masstree_remove.hh: gc_layer, gc_layer_rcu_callback, finish_remove", "masstree_key.hh: shift, unshift_all"]}
{"id": "C46", "title": "Scans beside other operations report only what was true while they ran", "statement": "When scan and rscan run at the same time as any number of gets, puts, removes and other scans on keys of one layer, a scan gives its visitor keys in order, without repetition and within its range; and for every key it has passed, reported with a value or not reported, that was the table's entry for the key at some moment between the call and the return. So a key present throughout with one value is reported with it, and a key absent throughout is not reported.", "quantifier": "all numbers of threads and scans in both directions, all start keys, all keys and values, all schedules of single accesses (sequentially consistent), all splits and removals of leaves under the scan, visitors that stop at any point", "why_tests_cant": "a missed or repeated key needs a leaf to split, be deleted or be refilled between two particular reads of the scan; the number of schedules is unbounded and a test cannot tell which entries were true while the scan ran", "anchors": ["masstree_scan.hh: find_initial, find_retry, find_next, basic_table::scan, rscan", "masstree_scan.hh: forward_scan_helper, reverse_scan_helper (lower, is_duplicate, advance, stable)", "masstree_struct.hh: reach_leaf, advance_to_key, has_changed"]}
{"id": "C47", "title": "JSON text is parsed to the value it denotes", "statement": "Json::parse accepts every text of RFC 8259 and gives the value it denotes: strings with their escapes decoded to UTF-8, integers with their value, arrays and objects with their members in order; it refuses texts that are not JSON.", "quantifier": "all texts, all nesting up to the limit of 2048, all white space, all ways of writing characters and numbers", "why_tests_cant": "the grammar is infinite; escapes of single character ranges, letter case inside a surrogate pair and the amount of trailing white space each matter only for particular texts", "anchors": ["json.cc: Json::assign_parse, streaming_parser::consume, consume_string, consume_backslash, consume_number", "straccum.cc: append_utf8_hard", "mtd.cc: recover (Json::parse of kvd-ckp-gen)"]}
{"id": "C48", "title": "JSON text written by the library is read back as the same value", "statement": "Json::parse(j.unparse(m)) == j for every value j and every unparse manipulator m.", "quantifier": "all values, all nesting up to 2048, all strings, all integers, all indent depths, tab widths, separators and newline settings", "why_tests_cant": "values and strings are infinite; writer and parser each treat some characters specially and disagree on a few of them", "anchors": ["json.cc: Json::hard_unparse, unparse_is_complex, unparse_indent", "string_base.hh: encode_json_partial", "json.hh: unparse_manipulator", "mtd.cc: commit_checkpoint (ckpj.unparse())"]}
{"id": "C49", "title": "The streaming JSON parser does not depend on how the text is cut into pieces", "statement": "Feeding a text to Json::streaming_parser in pieces, the last announced as complete, is accepted exactly when the text in one is, with the same value and the same unconsumed rest.", "quantifier": "all byte strings, all ways to cut them into pieces, including inside characters, escapes, words and numbers, and empty pieces", "why_tests_cant": "every cut point of every text is a case of its own; the code for a cut inside a character is separate from the code for the whole character", "anchors": ["json.cc: streaming_parser::consume, consume_string, consume_stringpart, consume_primitive, consume_number", "json.hh: streaming_parser"]}
{"id": "C50", "title": "The JSON parser is safe on arbitrary bytes", "statement": "For any bytes in any pieces the JSON parser has defined behaviour, and the values it builds are nested at most max_depth (2048) deep.", "quantifier": "all byte strings, all ways to cut them", "why_tests_cant": "the offending inputs are single byte sequences among infinitely many, and reading one byte behind a chunk usually has no visible effect", "anchors": ["json.cc: streaming_parser::consume, consume_string, consume_number", "json.hh: streaming_parser::max_depth"]}
{"id": "C51", "title": "Strings and StringAccums are values", "statement": "Although String shares reference-counted buffers, appends in place, and hands buffers to and from StringAccum, every String and StringAccum variable behaves as a separate character sequence: an operation changes only the variables it is documented to change, including when a String is appended or assigned from a part of itself, and never reads or writes outside live memory.", "quantifier": "all programs over any number of String and StringAccum variables: construct, stable strings, copy, move, assign, swap, append (also of itself or a part), fill, substr, c_str, mutable_data, unique, shrink_to_fit, accumulate, take_string, make_transfer, destroy; all characters; lengths up to 2^30-12", "why_tests_cant": "whether two variables interfere depends on the whole history of sharing, capacities and lengths; a freed or overwritten buffer usually still shows the old characters", "anchors": ["string.hh: rep_type, memo_type, String, is_shared, unique, shrink_to_fit", "string.cc: String::assign, append, append_uninitialized, hard_c_str, mutable_data, substring", "straccum.hh, straccum.cc: StringAccum, grow, append, take_string, transfer_from"]}
{"id": "C52", "title": "String buffers are neither leaked nor freed twice", "statement": "At any time every allocated buffer is referred to by a live String or StringAccum, and once all variables are destroyed all buffers are freed.", "quantifier": "the programs of C51, at every point", "why_tests_cant": "a missing or extra reference shows only for particular histories of sharing and, when it does, often has no visible effect", "anchors": ["string.hh: String::memo_type, rep_type::ref, rep_type::deref", "string.cc: String::create_memo, delete_memo", "straccum.hh: ~StringAccum, take_string"]}
{"id": "C53", "title": "Memory from the pools belongs to one object at a time", "statement": "Every object obtained from a thread's pools or from malloc keeps what was written into it until it is released, objects not yet released never overlap, objects from pools start at cache lines, and freeing, retiring and releasing them in any order and on any thread never corrupts a free list. Blocks given back are used again before the system is asked for more, and nothing obtained from malloc outlives its object.", "quantifier": "all programs of allocations, frees, retirements, releases, reads and writes on any number of threads, all sizes the pools serve, all initial memory contents and all addresses the system may answer", "why_tests_cant": "free lists run through the freed blocks themselves: a wrong size class, link or tag hands out overlapping memory only much later and for particular histories", "anchors": ["kvthread.hh: pool_allocate, pool_deallocate, pool_deallocate_rcu, free_rcu, record_rcu", "kvthread.cc: initialize_pool, refill_pool", "mtcounters.hh: memtag_pool_mask"]}
{"id": "C54", "title": "A leaf is given back with the size it was allocated with", "statement": "The size a leaf reports when it is freed is the size it was allocated with, whatever suffix space it was made for and however often its suffix bag was replaced; the size is one the pools serve and the inner bag's offsets fit their type.", "quantifier": "all leaf sizes up to 1152 bytes, all requested suffix sizes, any number of suffix bag replacements", "why_tests_cant": "the size is recomputed from a signed byte that also encodes whether the inner bag is dead; a mismatch silently moves a block between size classes", "anchors": ["masstree_struct.hh: leaf::leaf, leaf::make, leaf::allocated_size, leaf::hard_assign_ksuf", "compiler.hh: iceil"]}
{"id": "C55", "title": "Destroying a table frees its nodes, once, and nothing else", "statement": "After any operations on a table, destroying it frees every node of every layer exactly once, uses no node after freeing it, and touches no other memory; layer collections that are still pending when the table is destroyed do not touch freed nodes.", "quantifier": "all sequences of puts, removals, lookups and layer collections, hence all tree shapes; all pending collections", "why_tests_cant": "the work queue overwrites the parent pointers it may still need; a missed subtree is only a leak and a late collection only fails if the memory was reused", "anchors": ["masstree_remove.hh: basic_table::destroy, destroy_rcu_callback::operator(), destroy_rcu_callback::enqueue, gc_layer_rcu_callback::operator()"]}
{"id": "C56", "title": "A get of a versioned array row is a snapshot", "statement": "While rows are updated in place, enlarged and replaced, a get answers with the requested columns of a value the row had at one moment of the get: every update that had ended by then has taken effect, in order, and no part of any other; a get reads only inside the row, updates never wait for gets, and a get that is left alone ends.", "quantifier": "all initial rows, all sequences of puts and replacements, all interleavings with any number of gets of any columns, one memory access per step, columns copied in any order", "why_tests_cant": "a torn copy needs an update between the copies of two columns; the wrap of the 31-bit version needs two thousand million updates during one get; the unprotected reads fail only if the update falls between two adjacent loads", "anchors": ["value_versioned_array.hh: rowversion, value_versioned_array::col", "value_versioned_array.cc: value_versioned_array::snapshot, value_versioned_array::update", "kvrow.hh: query::run_get, query::run_get1, query::emit_fields, query::apply_put, query::apply_replace"]}
{"id": "C57", "title": "Recovery from a checkpoint taken while updates run", "statement": "If a checkpoint is taken while clients go on updating and the server later recovers from it and the logs, every key has the value left by all its updates of epochs before the end of the replayed range, and no others: an acknowledged update is not lost because it ran beside the checkpoint.", "quantifier": "all runs of any number of threads, logs and checkpoints in any interleaving, all moments of the scans, all replay orders, all rows and change sets that fit", "why_tests_cant": "an update is lost only if its thread is held up between reading the epoch and storing the row while the epoch advances and the checkpoint scans its key, and only a crash and recovery shows it", "anchors": ["kvrow.hh: query::apply_put, query::apply_replace", "mtd.cc: conc_checkpointer, prepare_checkpoint, max_flushed_epoch", "log.cc: check_epoch, loginfo::record, logreplay::replayandclean1"]}
{"id": "C58", "title": "A server can start again after a crash", "statement": "Whatever a crash leaves of the log files, the server starts again: recovery stops at none of its own checks. In particular, once a checkpoint is committed the server can start again from it and the logs, and replays at least the epochs the checkpoint covers, so that no update made beside the checkpoint is missing; also if the number of logs was changed at an earlier restart.", "quantifier": "all runs of any number of logs, all interleavings of updates, flushing, sleeping and waking logs and the checkpointer, all crash moments, all prefixes of unsynced writes found in the files", "why_tests_cant": "the checks of recovery compare epochs found in all files; they fail only for particular orders of flushing, falling asleep, waking and committing across several logs, or a restart later", "anchors": ["mtd.cc: recover, conc_checkpointer, max_flushed_epoch, prepare_checkpoint, commit_checkpoint", "log.cc: loginfo::run, loginfo::record, logreplay::info, logreplay::min_post_quiescent_wake_epoch", "log.hh: loginfo::quiescent, loginfo::flushed_epoch"]}
{"id": "C59", "title": "The log buffer neither loses, duplicates nor mixes updates, and its waiting list is sound", "statement": "Updates of many threads recorded through one log buffer, with a logger thread that swaps it and writes it out, end up in the log file whole, exactly once, with their epochs, in the order in which the calls returned; no store leaves the buffer and the list of waiting calls never refers to a call that has returned. After a crash the file holds a prefix of them that includes every call returned before a completed write round. Calls that wait for room return in the order in which they began to wait, and every call returns in the end.", "quantifier": "all buffer sizes, all numbers of threads, all requests, all interleavings of calls, retries, logger rounds, ends of writes, clock ticks and wake-ups of other logs, all crash moments and cuts of the write in progress", "why_tests_cant": "the buffer is 20 MB and stalls are rare; the list lives in the stack frames of stalled calls and goes wrong only for particular orders of stalls, retries and swaps; that a call never returns cannot be observed", "anchors": ["log.cc: loginfo::record, loginfo::run, loginfo::loginfo", "log.hh: class loginfo, struct waitlist"]}
{"id": "C60", "title": "A small_vector is a sequence whose elements are made and destroyed exactly once", "statement": "After any sequence of constructions, copies, push_backs, pop_backs, clears, resizes, erases, element assignments, vector assignments and destructions, over any number of small_vectors, each vector has the size and the elements that the same operations give on plain sequences. Storage changes from inline to heap and between heap blocks without notice: no element is built over another, destroyed twice, or read after it was destroyed or moved from, no two vectors share storage, the elements in existence are exactly those of the vectors, and when all vectors are gone no element and no block is left.", "quantifier": "all inline capacities N, all numbers of vectors, all programs of operations, all element values", "why_tests_cant": "double destruction, leaks and reads of moved-from elements show no wrong value for the trivial element types used in the tree; the cases depend on how sizes meet capacities across several vectors, and 32-bit capacities wrap only at 2^31 elements", "anchors": ["small_vector.hh: grow, push_back, pop_back, clear, resize, erase, operator=, copy constructor, destructor"]}
{"id": "C61", "title": "A crash of the machine leaves a whole checkpoint", "statement": "Checkpoints are written by several threads to files in one or more directories and committed by replacing kvd-ckp-gen through a temporary file, after which the files of the previous one are removed. Whenever the machine crashes, before, during or after this, and however often, the files that survive let recovery read one whole checkpoint, never parts of two and never a torn file: the last one committed or the one being made. Short and interrupted writes do not change this.", "quantifier": "all numbers of threads, contents and pieces in which they are written, interleavings of the threads, crash moments, choices of surviving directory changes (in order on one disk; in order on each disk; any), contents of files not synced, numbers of checkpoints, crashes and restarts", "why_tests_cant": "tests do not crash the machine, and the losing combinations need particular directory changes to reach one disk and not another", "anchors": ["file.cc: sync_write_file_contents, atomic_write_file_contents", "file.hh: safe_write", "mtd.cc: writecheckpoint, commit_checkpoint, recover, recovercheckpoint"]}
{"id": "C62", "title": "Searches in strings and glob patterns give what they promise", "statement": "find_left and find_right return the leftmost (rightmost) index at which a byte or string occurs, not before (not after) the given start, and -1 if there is none. glob_match says whether a string matches a pattern in which * stands for any bytes, ? for one byte, [...] and [^...] for one byte of a class or outside of it and \\ for the next byte itself. None of them reads outside of its arguments.", "quantifier": "all strings, all starts (negative and beyond the end too), all strings searched for (the empty one too), all patterns (unclosed classes, trailing backslashes and runs of stars too)", "why_tests_cant": "strings and patterns are unbounded and matching runs many positions at once; a read one byte behind a string gives a plausible answer; the repository has no test of classes", "anchors": ["string.cc: String_generic::find_left, find_right, glob_match", "string_base.hh: find_left, find_right, glob_match", "mttest.cc: glob_match of experiment names"]}
{"id": "C63", "title": "base64 and URI component encodings are faithful and reversible", "statement": "encode_base64 writes the base64 text of RFC 4648 of a string, with or without padding; decode_base64 gives the string back, and returns false exactly for texts that are not base64. encode_uri_component writes only unreserved characters and percent codes, and its text stands for the given string and no other. The encoders and decoders write inside the space they reserve.", "quantifier": "all byte strings, all texts (any bytes, any number of padding characters, any length modulo 3 and 4)", "why_tests_cant": "the repository tests three URI strings and no base64; the signs of the shifted table entries, the last group and the size of the reservation matter only for particular bytes and lengths", "anchors": ["string_base.hh: encode_base64, decode_base64, encode_uri_component, upper_hex_nibble", "string.cc: base64_encoding_table, base64_decoding_map"]}
{"id": "C64", "title": "Natural comparison orders strings and compares the numbers in them by value", "statement": "natural_compare always returns; it returns 0 exactly for equal strings; numbers that follow the same text are ordered by their values however many digits they have, behind a minus sign the other way round, and with equal values by their leading zeros; fractions are ordered by value, but the parts of IP addresses and versions as numbers; texts without digits are in lexicographic order, and case matters only between texts otherwise equal; exchanging the strings reverses the sign of the result; and the order is transitive, so that sorting by it is defined.", "quantifier": "all pairs and triples of byte strings, numbers of any length", "why_tests_cant": "the repository does not test natural_compare; antisymmetry and transitivity speak of all pairs and triples, and a comparison that violates them makes std::sort undefined only for some inputs", "anchors": ["string.cc: String_generic::natural_compare", "string_base.hh: natural_compare, natural_comparator"]}
{"id": "C65", "title": "Equal strings have equal hash codes, and to_i reads integers", "statement": "The hash code of a string depends on its bytes and not on where they are (the invariant documented at String::hashcode), so that lookups in Json objects by it find their keys. to_i returns the integer a string begins with: an optional sign and digits; 0 for other strings.", "quantifier": "all byte strings, all addresses, all machines; integers of any length", "why_tests_cant": "tests run on one machine, with strings at the addresses the allocator gives; integers beyond 64 bits are not tried", "anchors": ["string.cc: String_generic::hashcode, String_generic::to_i", "string_base.hh: hashcode (invariant)", "compiler.hh: HAVE_INDIFFERENT_ALIGNMENT"]}
{"id": "C66", "title": "Timestamps are ordered as times and subtract to times", "statement": "timestamp() is the time of day in seconds and microseconds; timestamps are ordered as the times they stand for; timestamp_sub gives the time between two timestamps with microseconds below a million.", "quantifier": "all times of day, all pairs of timestamps including those made by update_timestamp", "why_tests_cant": "the borrow between the parts and the wrap-around concern particular microseconds and dates; no test covers timestamp_sub", "anchors": ["timestamp.hh: timestamp, timestamp_sub, KVTS_HIGHPART, KVTS_LOWPART", "kvthread.hh: update_timestamp"]}
{"id": "C67", "title": "A Json object is a map that keeps the order of insertion", "statement": "After any sequence of set, insert and erase on a Json object, iteration yields the keys that are there with their latest values in the order of their insertion, size() is their number, and lookups find exactly them; no sequence of calls has undefined behaviour; the space used is linear in the number of keys.", "quantifier": "all sequences of calls, all keys and values, all hash functions (all collisions)", "why_tests_cant": "jsontest.cc uses objects of a few keys, which hardly collide; chains with erased items, growth of the hash table in the middle of a sequence and erase before the first insertion need particular sequences and collisions", "anchors": ["json.cc: Json::ObjectJson::find_insert, get_insert, erase, rehash", "json.hh: Json::ObjectJson::find, bucket; Json::set, unset, insert, erase, const_object_iterator"]}
