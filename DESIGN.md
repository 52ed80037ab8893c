# Formal model of masstree-beta: design

Source: `/repo` (kohler/masstree-beta, C++), read as text. Prover: Rocq/Coq 8.16.1, standard library only.

## Method

* Every modelled C++ function becomes a total, computable Gallina function (or, for concurrent code, a
  step relation whose steps are single memory accesses) with a comment citing file and lines in `/repo`.
* Machine words are `Z` with explicit `mod 2^n`. Bytes are `Z` in `[0,256)`, strings are `list Z`.
  Functions that could read out of bounds, fail an assertion or dereference null return a distinct
  `Err`/`None` outcome; loops take fuel and return `OutOfFuel` when exhausted; theorems exclude both.
* Specifications live in separate small files (`Spec*.v`): finite maps as association functions on byte
  strings, lexicographic order, list operations, etc. They do not mention model helpers.
* Files: `M_*.v` hold definitions only, `P_*.v` proofs, `T_*.v` the property theorems (each closed by
  `exact lemma`, followed by `Print Assumptions`) and `Example`s meeting their hypotheses.

## Plan per property

| id | model | proof |
|----|-------|-------|
| C01 | heap of leaf/internode records with permutation words, parent/next/prev pointers and layer pointers; `find_locked`, `find_insert`, `make_new_layer`, `make_split`, `finish`, `finish_remove`, `remove_leaf`, `gc_layer`, `get` as fuelled functions on the heap | refinement to a finite map by a global invariant with ghost key ranges and layer prefixes; induction over the operation list |
| C02 | same | corollary of the same simulation, one operation `find_insert;finish(0)` |
| C03 | `M_Key` | injectivity of the (slice,length) decomposition |
| C04/C05 | `scanstackelt` state machine on the heap | loop invariant "everything between start and current key has been emitted" |
| C06 | `M_Key` | induction on 8-byte slices against an independent lexicographic order |
| C07 | `remove_leaf`, `gc_layer` on the heap | preservation of the abstraction by these functions alone |
| C08 | same | totality: the model never returns `Err`/`OutOfFuel` on reachable heaps |
| C09 | same | the heap invariant itself, stated independently |
| C10 | `M_Permuter` on words | bit-level refinement to list operations, all widths |
| C11 | `M_Ksearch` | loop invariants, sorted arrays |
| C12 | `M_Stringbag` on bytes | invariant on disjoint extents; induction over store sequences |
| C13 | `M_Nodeversion` | arithmetic on the counter fields |
| C14 | step relation of lock/try_lock/unlock/stable | inductive invariant over all schedules |
| C15 | step relation: writer and readers on one leaf, one access per step | inductive invariant with ghost history |
| C16 | step relation of `link_split`/`unlink` | inductive invariant |
| C17 | step relation of threads, epochs, limbo entries | inductive invariant; refutation for "retire before unlink" |
| C18 | `limbo_group` chunk functions | refinement to a FIFO queue |
| C19 | thread timestamps and per-leaf phantom epochs: on the sequential tree (`M_Stamp`) and, one memory access per step, on the leaf list of one layer (`M_Stampc`) | invariant over histories: the phantom of the leaf responsible for an absent key is at least its last removal; the concurrent invariant needs that no thread raises a phantom by compare-and-swap between another's read and store of it, and witnesses show the order fails otherwise |
| C20 | `M_Circular` | modular arithmetic |
| C21/C22 | `M_Log` encoder, `extract` | round trip; prefix argument for every cut |
| C23 | `logrecord::apply` on abstract rows | confluence over permutations |
| C24/C25 | `logrecord::run/apply` + `parse_changeset` + msgpack bytes | expected to be false: `_refuted` with witness |
| C26/C36 | logs as record lists with epochs, `recover` epoch computation | invariant over schedules and crash points |
| C27/C28/C29 | `M_Msgpack` writer, parser, streaming parser | round trip by induction on values; chunk independence |
| C30/C31/C32 | row types on bytes | functional correctness of `update` |
| C33 | `findpivots`, the visiting threads' files and the loading threads (`M_Ckpt`) over the tree, scan, msgpack, output buffer and row models | ranges cover the keys and, if the boundaries are in order and not empty, are disjoint; invariant of the loading threads under any interleaving; boundaries of a well-formed tree are in order; refutations for a null child, an empty boundary and a restart with fewer threads |
| C34 | `kvout` | refinement to append-only byte list |
| C35 | `run_scan` visitor over scan | corollary of C04/C05 |
| C37 | `udpgo` buffer handling | witness, and the part that holds |
| C38 | `M_Msgpack` streaming parser with explicit undefined outcomes | invariant over all byte streams; witness for lengths of 2^31 and more |
| C39 | log record headers at the end of the file | witness, and bounds for the others |
| C40 | the log files recovery writes back | invariant over repeated crashes; witnesses |
| C41 | logging of a parsed request | round trip per command; witness |
| C43 | all operations of one layer, every node access its own step, any number of threads (`M_Conc`) | inductive invariant with logical key ranges; each operation has a moment of effect; witness run |
| C44 | the same model (`M_Conc`) | locks are taken upwards (parents are higher than children) and every locked node has a holder; for gets and puts, a schedule that ends all operations |
| C45 | layers as atomic objects, any number of threads and layers (`M_Layers`) | invariant: each layer in use hangs below exactly one row, and its keys can be read off it; tables read off the layers; moment of effect per operation |
| C46 | scanners beside the threads of `M_Conc` (`M_ConcScan`) | invariant: every key passed so far is settled, that is its reported entry held at a moment since the scan started, and the rest of the leaf's permutation covers the leaf's range while its version stands; witness run |
| C47 | `M_JsonText`: the parser byte by byte, as a machine with the pointer stack as a zipper | an independent grammar (`Spec_JsonText`); induction over derivations; conversely, strong induction over the text that what is accepted is of a second, larger grammar (`Spec_JsonLax`); witnesses |
| C48 | `M_JsonText`: the writer | the writer's output is a text of the RFC's grammar, and for most values of the part that C47 covers; witnesses |
| C49 | the same parser, with its partial states | a step on a piece is a step on the text or leaves a partial state from which the rest gives the same; witnesses |
| C50 | the same parser with undefined outcomes | invariant on focus and stack; witnesses |
| C51 | `M_StringRep`: representation of strings over a heap of blocks, operation by operation | independent value semantics (`Spec_StringRep`); simulation with the reference counts as sums over the variables; witnesses |
| C52 | the same model | from the simulation invariant: every block has references from exactly the variables that use it |
| C53 | `M_Pool`: word-addressed memory, pages, free lists through the blocks, retire queues | independent object semantics (`Spec_Pool`); invariant with an owner for every address; simulation |
| C54 | the same file, size arithmetic of leaves | direct |
| C55 | `M_Destroy` over the heap of `M_Tree`: the work queue through the parent fields, freed nodes absent | the nodes of a table defined from the heap alone (`Spec_Destroy`); queue invariant; the nodes reached form a tree (from the invariant of C01) |
| C56 | `M_Rowver`: one row, one updater at a time and any number of gets, one access per step | invariant: a copy whose version still matches holds columns of a value of a moment of the get; values defined from the updates alone (`Spec_Rowver`); witnesses |
| C57 | `M_Fuzzy`: threads that update and record, the epoch, a checkpointer scanning without locks, and replay (`M_Replay`) | invariant: for every key scanned, the updates stored after the scan have epochs from `min_epoch` on and those before at most `max_epoch`; then C23's replay; `Spec_Fuzzy` defines the restored values from the history of stored updates; witnesses for the race; the repaired code without side condition |
| C58 | `M_Logset` (logs and recovery) with `M_Restart` (the commit of a checkpoint) | every file of a crash has an info, so recovery reaches its checks; invariant: what counts as flushed is on disk unless the log was asleep; hence the checks hold for a checkpoint committed while no log had been asleep since its end (`Spec_Restart`); six witnesses for the conditions |
| C59 | `M_Logbuf`: `record` and the logger on the bytes of both buffers and the pointers of the waiting list, one step per critical section | invariant: file, write in progress and buffer together are the encoding (`M_Log`) of a list of entries, the list links exactly the calls that nap; read back with C21 and cut with C22 (`Spec_Logbuf`); witnesses for calls that never return |
| C60 | `M_Smallvec`: vectors as pointers into storage whose cells are raw or hold an object (possibly moved from); a wrong access is an undefined outcome | invariant: each vector's block is its sequence (`Spec_Smallvec`) followed by raw cells, and every block has one owner; simulation of each operation; witnesses for an aliased `push_back`, N = 0 and 2^31 elements |
| C61 | `M_Ckfile`: a file system that keeps synced data and, of the directory changes since the last sync of a directory, some; the calls of a checkpoint in any interleaving | invariant over all directories a crash may leave: each refers to one whole, synced checkpoint (`Spec_Ckfile`); the same invariant proves the code on one ordered disk and a repaired commit on any disks; witnesses otherwise |
| C62 | `M_Strfind`: the search loops and the position sets of `glob_match`, reads outside of a string as an outcome | leftmost and rightmost occurrences and an inductively defined pattern language (`Spec_Strfind`); the set of positions holds one that matches the rest just when the pattern matches; cutting a common end preserves the language; witnesses for classes and for two reads outside of the arguments, and the repaired loops for all arguments |
| C63 | `M_Strenc`: the tables and loops of the encoders and the decoder on 32-bit words, with the reservations | base64 defined by lists of bits and percent-encoding by a relation (`Spec_Strenc`); induction by groups of three and four; table entries by checking all bytes |
| C64 | `M_Natcmp`: the loop of `natural_compare` with the rests of both strings and the bytes before them | decimal values, signs, fractions and lexicographic order (`Spec_Natcmp`); induction on the loop with prefixes equal up to case, the raw difference negated for the exchanged strings |
| C65 | `M_Strnum`: `hashcode` for three kinds of machines and both parities of the address, `to_i` on 64-bit words | integers at the beginning of a string (`Spec_Strnum`); cases of machines, induction on digits |
| C66 | `M_Tstamp`: timestamps as 64-bit words | seconds and microseconds (`Spec_Tstamp`); arithmetic |
| C67 | `M_Jsonobj`: items, chains and buckets of an object, for any hash function | lists of keys and values in the order of insertion (`Spec_Jsonobj`); invariant that the chain of a bucket is the increasing list of its live items; refinement over sequences of calls |
| C42 | requests of the client against the server's checks | case analysis; witnesses |

## What is modelled, file by file

| model file | code | left out |
|---|---|---|
| `M_Key` | `string_slice.hh`, `masstree_key.hh`, `str.hh`/`string_base.hh` comparison | big-endian and unaligned variants |
| `M_Permuter` | `kpermuter.hh` (all widths 1-15; `identity_kpermuter` by its definition) | `unparse` |
| `M_Search` | `ksearch.hh` | the unused method tags |
| `M_Stringbag` | `stringbag.hh` | `print` |
| `M_Version` | `nodeversion.hh`, 32-bit | the 64-bit parameters, `singlethreaded_nodeversion` |
| `M_Tree` | `masstree_struct.hh`, `masstree_get.hh`, `masstree_insert.hh`, `masstree_split.hh`, `masstree_remove.hh`, `masstree_tcursor.hh`, `btree_leaflink.hh`, one thread | versions, locks, retries, prefetch, phantom epochs (see `M_Stamp`), statistics, `destroy` (in `M_Destroy`), reclamation |
| `M_Scan` | `masstree_scan.hh`, one thread | the branches for changes during a scan, `visit_leaf` |
| `M_Stamp` | `kvthread.hh` `update_timestamp`, `kvrow.hh` `apply_*` timestamps, `masstree_remove.hh` and `masstree_split.hh` phantom epochs, over `M_Tree`, threads taking turns | 64-bit wrap of timestamps, recovery |
| `M_Stampc` | the same, each access to a phantom epoch, a link or a leaf's lock its own step, any number of threads | layers, internodes, retries of the descent (a thread finds the responsible leaf in one step), weak memory orders |
| `M_Ckpt` | `checkpoint.hh`, `checkpoint.cc`, `query_masstree.cc` `findpv`/`findpivots`, `mtd.cc` `writecheckpoint`, `conc_filecheckpoint`, `conc_checkpointer`'s ranges, `read_checkpoint`, `recovercheckpoint` | updates during a checkpoint (see `M_Fuzzy`), fsync and renaming, the phases of the checkpointing threads, `int` overflow in `findpv` with 2^13 threads or more |
| `M_Leafread` | every memory access of `find_unlocked`, `find_locked` and the lock holder's stores, on one leaf | the walk between leaves, layers; weak memory orders |
| `M_Conc`, `M_ConcRun` | `masstree_struct.hh` `reach_leaf`, `advance_to_key`, `stable_last_key_compare`, `locked_parent`, `fix_root`; `masstree_get.hh`, `masstree_insert.hh` without layers, `masstree_split.hh`, `masstree_remove.hh` `remove_leaf` and `redirect`; versions, locks, marks and retries, any number of threads | layers below a slice, key suffixes; several stores made under a lock and a mark are one step, and a reader gets arbitrary data from a node that carries a mark or has changed; the leaf's stores without a mark are in `M_Leafread`, the list's in `M_Link`; counters do not wrap (`M_Version`); weak memory orders |
| `M_ConcScan`, `M_ScanRun` | `masstree_scan.hh` `find_initial`, `find_retry`, `find_next`, both helpers and the loop of `scan`, in one layer, beside all operations of `M_Conc` | `scan_down` and `scan_up` (layers, suffixes, `upper_bound_`), `visit_leaf`; reading the permutation and searching it is one step; a slot that is taken by another key is only seen together with a changed version (that is C15's `M_Leafread`) |
| `M_Layers` | `masstree_get.hh` `find_unlocked`, `find_locked` descent and restart, `masstree_insert.hh` `make_new_layer`, `finish`, `masstree_remove.hh` `gc_layer`, its callback, `finish_remove`; any number of threads, keys of any length | what happens within a layer (`M_Conc`): finding, writing, removing a row and `make_new_layer` are one step each; a collector locks one row instead of its leaf; the lock on the leaf of a new layer; reclamation of collected layers (C17); the trees inside a layer, so `gc_layer`'s loop over redundant internodes |
| `M_Link` | `btree_leaflink.hh`, one access per step | reuse of unlinked nodes, weak memory orders |
| `M_Rcu`, `M_Limbo` | `kvthread.hh`, `kvthread.cc`: epochs, retire, collect | `memdebug` |
| `M_Circular` | `circular_int.hh` | - |
| `M_Bag`, `M_Array`, `M_Strrow`, `M_Rowrun` | `value_bag.hh`, `value_array.*`, `value_versioned_array.*`, `value_string.hh`, update part of `kvrow.hh` | the row version protocol of versioned arrays (see `M_Rowver`), printing, memory accounting |
| `M_Msgpack` | `msgpack.hh`, `msgpack.cc` | Json reference counting |
| `M_JsonText` | `json.cc` from `unparse_is_complex` to the end (writer and streaming parser), `json.hh` manipulators and streaming parser, `string_base.hh` `encode_json`, `straccum.cc` `append_utf8` | `strtod` and `%.12g` are parameters; error positions; strings that share the chunk's memory; reuse of a container in `json_`; reference counting; negative tab widths; `Json::empty` on strings |
| `M_StringRep` | `string.hh`, `string.cc` (representation, assign, append, c_str, mutable_data, substr, unique, shrink_to_fit), `straccum.hh`, `straccum.cc` (grow, append, c_str, take_string, make_transfer) | out-of-memory strings, profiling, several threads on one buffer, numeric conversion, sizes from 2^30-12, comparison and hashing, the address of a block's header |
| `M_Pool` | `kvthread.hh`, `kvthread.cc`: pool_allocate, pool_deallocate(_rcu), allocate, deallocate(_rcu), free_rcu, initialize_pool, refill_pool; `masstree_struct.hh`: leaf sizes | one system call per page, the answer given by the program; operations atomic (a pool is used by its thread only); no pools (`use_pool() == false`), `memdebug`, counters, failing allocation; epochs (in `M_Rcu`): releases may happen at any time; the queue is a list (`M_Limbo` has the groups) |
| `M_Destroy` | `masstree_remove.hh`: `destroy`, `destroy_rcu_callback` | one thread; the two runs of the callback follow each other (what may run between and after them: `C55_marked`, `C55_late_gc_refuted`); the callback object; values, which the code does not free |
| `M_Rowver` | `value_versioned_array.*`: `rowversion`, `snapshot`, `update`, `col`; their callers in `kvrow.hh` | sequentially consistent memory; one key; columns as pointers; release of columns and rows (rows and columns read late are taken to be there, see C17); timestamps; `emit_fields1`; the reuse of the snapshot storage between gets; compilers that merge the three loads of `col` |
| `M_Fuzzy` | `kvrow.hh` `run_put`, `run_replace` with logging; `log.cc` `check_epoch`, the order of `record`; `mtd.cc` `conc_checkpointer`, `prepare_checkpoint`; the choice of records to replay | the tree (one lock per key, a scan passes a key once and at one moment: C01, C43, C46, C33); file formats and the range of epochs found in the files (C26, C33); removals; wrap of epochs; stalled records; sequentially consistent memory |
| `M_Restart` | `mtd.cc` `conc_checkpointer`: when a prepared checkpoint is committed (the rest of recovery: `M_Logset`) | reading the checkpoint's metadata file (C31, C47), its renaming |
| `M_Logbuf` | `log.cc` `loginfo::record`, `loginfo::run`, `loginfo::loginfo`, `struct waitlist` | the log lock (its critical sections are the steps), `napms`, a failing `write()`, starting on an existing file (`M_Logset`) |
| `M_Smallvec` | `small_vector.hh` constructors, copy, destructor, `grow`, `push_back(const T&)`, `pop_back`, `clear`, `resize`, `erase`, `operator=` of the same type | `emplace_back` and `push_back(T&&)`, the templates that copy from another N, allocators with state, exceptions, iterators kept across calls |
| `M_Ckfile` | `file.cc` writing, `file.hh` `safe_write`, the system calls of `mtd.cc` `writecheckpoint` and `commit_checkpoint`, the files `recover` and `recovercheckpoint` open | failing calls (the server stops), a changed number of checkpoint threads (C33), the text of `kvd-ckp-gen` (a parameter, C47, C48), what a real file system promises beyond the model's |
| `M_Strfind` | `string.cc` `find_left`, `find_right`, `glob_match` | lengths of 2^31 and more, failing allocation |
| `M_Strenc` | `string_base.hh` `encode_base64`, `decode_base64`, `encode_uri_component`; the tables of `string.cc` | a failing reservation, locales other than C, `String::decode_base64`'s empty result for a refused text |
| `M_Natcmp` | `string.cc` `natural_compare` | lengths of 2^31 and more, locales other than C |
| `M_Strnum` | `string.cc` `hashcode`, `to_i`; the choice of `get16` by `compiler.hh` | lengths of 2^31 and more |
| `M_Tstamp` | `timestamp.hh` `timestamp`, `timestamp_sub` and the macros for parts | `now`, `set_timespec` |
| `M_Jsonobj` | `json.cc` `ObjectJson::find_insert`, `get_insert`, `erase` by key and by iterator, `rehash`; `json.hh` `find`, `bucket`, `set`, `insert`, `unset`, iteration | `grow` and the memory of the items, copies and reference counts, Json values (numbers stand for them) |
| `M_Log`, `M_Logfile`, `M_Logset` | `log.hh`, `log.cc`, `mtd.cc` recovery | `mmap`, file renaming and write-back, buffer sizes (an update may stall at any time) |
| `M_Replay` | `logrecord::run`, `logrecord::apply`, the logging side of `mtd.cc` `onego` | array rows, memory accounting |
| `M_Kvio` | `kvio.hh`, `kvio.cc` | `usleep`, `kvin` |
| `M_Query` | `kvrow.hh` get and scan, `mtd.cc` `onego` get/scan, the client's `sendget`/`sendscan` | `scan_versions`, value_string rows |

Concurrent models are sequentially consistent interleavings of single memory accesses. Two simplifications are shared by
all sequential models: memory handed to deferred reclamation stays readable (its safety is C17/C18), and `new`/`malloc`
succeed.

## Not modelled

Relaxed memory effects below sequential consistency, the C library's allocator, sockets, signals, the test drivers
(`mttest`, `kvtest.hh`), `clp`, statistics and printing. Build-time options other
than the defaults (`MASSTREE_MAXKEYLEN` 255, leaf width 15, internode width 15, 64-bit slices,
concurrent tree) are covered only where a theorem is stated for all widths.

Not connected to each other by a theorem: the one-leaf concurrent model (`M_Leafread`), the leaf list (`M_Link`), the
lock and version words (`M_Version`), the concurrent layer (`M_Conc`) and the sequential tree (`M_Tree`). Linearizability
is proved for one layer access by access (C43) and for several layers whose operations are atomic (C45, `M_Layers`); no
theorem combines the two. Rows in `M_Query` and `M_Replay` sit in an abstract map; that the tree is a map is C01.

## Disagreements between the code and what one would expect

Each has a `_refuted` theorem with a witness unless marked "read only".

* C04: keys longer than `MASSTREE_MAXKEYLEN` can be inserted; a scan then writes behind its key buffer.
* C10: the comment on `kpermuter::rotate` describes another permutation (unused function).
* C12: `stringbag` accepts capacity 2^b, where offsets wrap.
* C13: 2^19 completed modifications between two reads of a version word are invisible.
* C16: while a split's last store is outstanding an already unlinked leaf is still reachable from the list.
* C17: `apply_replace`, `apply_remove` (kvrow.hh:197, 234, 264), the update of a versioned array in place
  (value_versioned_array.cc:76), `remove_leaf` and `gc_layer`
  (masstree_remove.hh:108, 191, 248) retire an object before unlinking it. If the epoch advances in between, a reader
  that starts after the retire can hold the object past its release.
* C19: three races let a key's later put carry a smaller timestamp than an earlier removal, so that replay drops the
  put: a split copies the phantom epoch before the removal of the next leaf raises it; `apply_remove` compares and stores
  the phantom in two accesses while the next leaf's removal raises it by compare-and-swap; the removals of two
  neighbouring leaves overlap. An in-place update of a versioned array keeps the old row timestamp, so a later
  update can be stamped below a logged one. Phantom epochs are not saved: they are 0 again after a restart (read only).
* C23/C24: replaying a removal parses the row marker as a change set and fails; a change set that fits a row may not fit a
  delta marker.
* C25: updates of the empty key are not replayed; a key of more than 255 bytes ends the replay of its log.
* C26, C36, C40: several schedules lose an update although a later one is kept, or report an epoch as durable which is not.
* C29, C41: `skip_primitives` does not know 64-bit integers and doubles; logging a parsed request writes an array header
  that `parse_changeset` does not read.
* C30-C32: rows of 2^16 bytes or more wrap their offsets, unsorted change sets are misread, value_string reads behind the
  old row, versioned arrays keep their old timestamp, and their snapshots may release live columns.
* C34: bytes are sent twice after a failed write; sizes wrap at 32 bits.
* C35, C42: counts are cut to 32 bits; `sendscan`/`sendget` send an array where the server requires an integer; the reply
  for an absent key echoes the request and cannot be told from a row.
* C37: `udpgo` parses the whole buffer rather than the bytes received.
* C38: 32-bit lengths of 2^31 and more become negative.
* C39: a modify record with fewer than 28 bytes left is read behind the end of the file.
* Read only: `recover()` leaves `quiescent` unset for an empty log; `run_remove` on a marker row returns true; the
  collection callback keeps a raw root pointer; `onego` uses `request[2]`'s string after overwriting the element
  (Cmd_Put, Cmd_Replace); `sendputwhole` resizes to 3 and then writes element 3;
  `kvout::grow` doubles even after a flush made room.
* C43: `make_split` looks its separator up in the parent and trusts the position. While a removal has unlinked its leaf but
  not yet redirected the separators above, the leaf to the left is responsible for keys above an old separator; if it then splits
  at such a key, and the parent is more than one level higher, `p->child_[kp] = nn` overwrites the branch to the right.
  `remove_leaf` asserts `p->child_[kp] == n`, `make_split` does not. Every key of the branch is lost
  (`C43_get_refuted`, `C43_lost_refuted`: ten threads and a reader, no assertion fails before the loss).
* C46: in the state of `C43_lost_refuted` a scan that starts at a lost key does not report it (`C46_scan_refuted`).
* C33: `findpv` follows `child_[0]` of an internode without testing it. `remove_leaf` leaves that pointer null in an
  internode that is not the leftmost of its level, so taking a checkpoint crashes the server: 260 ascending insertions, 15
  removals and five checkpoint threads are enough (`C33_null_child_refuted`).
* C33: a boundary taken from an empty leaf, or from a slice of NUL bytes, is the empty string, which as an end key means no
  end. The ranges then overlap and keys are written and loaded more than once. The contents survive, but `insert`'s
  invariant fails if invariants are compiled in (`C33_duplicate_refuted`).
* C33: the number of checkpoint threads is stored in `kvd-ckp-gen` but not compared at restart. With fewer threads the
  remaining files are ignored and their keys are lost without a message (`C33_fewer_threads_refuted`); with more threads the
  server stops on an assertion (`C33_more_threads`).
* C47: `append_utf8_hard` (straccum.cc:206) tests `ch < 0x8000` where 0x800 is meant, so the escapes of U+0800 to U+7FFF
  become two bytes that are not UTF-8; `\u0000`, `\uFFFE`, `\uFFFF` are refused; json.cc:1059 tests for upper case twice,
  so a second surrogate in lower case is refused; one byte of trailing white space is allowed, not two; integers are taken
  modulo 2^64; `-.5` and `-e5` are accepted; of `{"a":[1],"a":2}` the parser makes `{"a":[1,2]}`.
* C48: consequently strings with U+0000, U+2028 or U+2029 are not read back, since the writer escapes them; nor is -2^63.
* C49, C50: json.cc:934-937 read the byte behind the chunk when it ends after E0, ED, F0 or F4; `-9223372036854775808` negates
  the smallest integer (json.cc:1205).
* C50: `max_depth` is compared with `==` while a key in an object pushes without a test, so the limit can be stepped over;
  nesting is then unlimited (and recursive destructors follow it).
* C51: `String::is_shared` (string.hh:783-786) returns the opposite of its name for strings with a buffer. `mutable_data` on a
  String with a copy therefore writes into the copy too (`C51_mutable_refuted`); `make_transfer` takes the buffer away
  from the copies, which then use freed memory (`C51_transfer_refuted`). The JSON parser calls `make_transfer` only on a
  String of its own, where the effect is just a copy. With the test turned round all programs are covered (`C51_repaired`).
* C51: `String::unique` returns a String that shares its data with the original if that had a buffer of its own
  (`C51_unique_refuted`); `substr(pos, len)` overflows `pos + len` (`C51_substr_refuted`). A moved-from String keeps its data
  pointer and length without a reference, so reading it is undefined; the specification allows only assigning and destroying.
* C55: `destroy` climbs to the root from the table's root pointer but not from layer pointers (masstree_remove.hh:342). A layer
  pointer is corrected only by the next descent for an update, so if the last insertion into a layer split its root, the
  rest of that layer is never freed (`C55_leak_refuted`). A layer collection registered by another thread may run after
  the nodes are freed, since only that thread runs it; it starts by reading the freed root (`C55_late_gc_refuted`).
* C56: the row version has 31 bits, so a get that is held up during exactly 2^31 updates in place takes a torn copy for a
  good one (`C56_wrap_refuted`; the theorem covers gets during which fewer than 2^31 - 1 updates begin). `snapshot` copies
  the column of a one-column get without comparing it with the number of columns (value_versioned_array.cc:40), so a get
  of an absent column reads outside the row and writes outside the storage (`C56_absent_refuted`; only such gets do,
  `C56_get_inside`). `run_get1` takes no snapshot: `col` on the shared row loads the pointer up to three times, so it may
  combine the bytes of one string with the length of another (`C56_get1_refuted`) or follow a null pointer after a put of
  the empty string (`C56_get1_null_refuted`). Compilers usually load the pointer once; nothing in the code makes them.
* C57: an update reads its epoch (kvrow.hh:184, 226) before it stores its row, and the checkpointer reads `min_epoch`
  (mtd.cc:1657) and scans without waiting for such updates. If the epoch advances in between and the scan passes the key
  before the row is stored, the update is neither in the checkpoint nor among the records replayed (log.cc:718), although
  it was acknowledged and flushed; later updates of the same client are kept (`C57_race_refuted`), and a later column
  change of the same key is lost with it although it is replayed (`C57_later_refuted`). If no thread is held up in this
  way when a checkpoint starts, recovery is exact (`C57_restored_partial`). Taking and releasing every log's lock after
  reading `min_epoch` is enough (`C57_repaired`). In the situation of `C57_later_refuted` a build with
  assertions stops at `deltas_created == deltas_removed` (mtd.cc:1489) instead of starting without the change.
* C58: recovery from a committed checkpoint can stop at its own assertions (mtd.cc:1463-1465), and does so at every
  further start until the files are edited by hand. `min_epoch > max_first_epoch` fails if the checkpoint began in the
  first epoch of some log (`C58_first_refuted`), and after a restart with one more log, whose first epoch is later than
  the old checkpoint: the server starts, runs, and does not start again after the next crash unless a new checkpoint was
  committed (`C58_more_logs_refuted`). `max_epoch < replay_max_epoch` fails if a log asleep at the commit, which counts as
  flushed up to the present epoch, then records an update whose epoch was read before (`C58_held_refuted`); if the last
  log was never flushed, since `max_flushed_epoch` is then 0 and 0 means commit at once (`C58_unflushed_refuted`); and if
  a log asleep since before the checkpoint is counted as flushed up to the epoch of an update it has recorded in memory
  only, log.cc:317-318 (`C58_asleep_refuted`). With one log fewer the server starts and the synced updates of the missing log
  are gone without a message (`C58_fewer_logs_refuted`). Outside these conditions it restarts (`C58_checkpoint_partial`),
  and without a checkpoint always (`C58_logs_partial`).
* C59: an update whose record needs more than the 20 MB of a log buffer never returns from `loginfo::record`; neither it
  nor its callers limit the value of a put. It stays in the waiting list, so the log records no quiescence any more (`C59_big`), and every update
  that once finds the buffer full queues behind it and never returns either, however small (`C59_returns_refuted`): the
  threads concerned, and with them their clients, hang, while updates that find room go on. Also, only threads
  already in the list keep their turn: a newcomer that finds room passes all of them (`wait.next == &wait`, log.cc:303), so
  that a waiting update can be overtaken any number of times (`C59_overtake_refuted`).
* C60: `push_back(v[k])` on a full `v`, which `std::vector` permits, is undefined: `grow` destroys the element (and frees
  its block, when on the heap) before small_vector.hh:251 copies it (`C60_alias_refuted`); copying first repairs it
  (`C60_repaired_partial`). `N` = 0 is accepted by the template and undefined at the first `push_back`, since 0 doubles to 0
  (`C60_zero_refuted`); so does a capacity of 2^31, as `capacity()` is an `unsigned` (`C60_size_refuted`).
* C61: the rename of `kvd-ckp-gen` is not forced to disk before `commit_checkpoint` removes the files of the previous
  checkpoint (no directory is ever synced). With `--ckpdir` on two disks, one may have lost the rename and the other kept the
  removal; then `kvd-ckp-gen` names a checkpoint of which a file is missing, and the server stops at `always_assert(ckp_gen
  == gen)`, mtd.cc:1337, at every start (`C61_two_disks_refuted`), although two checkpoints had been committed. The last
  `fsync` precedes the rename, so it is no help that some file systems write directory changes with it. A file system
  that reorders directory changes loses in the same way with one disk (`C61_unordered_refuted`). On one ordered disk some whole
  checkpoint is found (`C61_one_disk_partial`), not always the one reported as committed (`C61_durable_refuted`). Syncing
  the directories before and after the rename repairs all of it (`C61_repaired`).
* C62: the loop over the members of a class in `glob_match` (`*++ec`, string.cc:453-456) skips the first member and compares the
  closing bracket: `[a]` matches `]` and not `a`, `[^a]` matches `a` (`C62_class_refuted`). With an unclosed class it reads the byte
  behind the pattern before it sees the end (`C62_glob_out_refuted`; harmless for C strings, not for a `String`). `find_right` of a
  string bounds `start` only when it is at least the length: `String("ab").find_right("bc", 1)` makes memcmp read behind the
  string (`C62_find_right_refuted`). Patterns without classes and the default start are right (`C62_glob_partial`,
  `C62_find_right_partial`), and so are the repaired loops (`C62_glob_repaired`, `C62_find_right_repaired`).
* C63: the int expression for the reservation of `encode_base64` overflows from a length of 2^29 - 2 on (`C63_long_refuted`).
  `decode_base64` accepts any number of `=` and any last bits, so that several texts stand for one string
  (`C63_unique_refuted`); the rest of the claim is proved (`C63_encode_partial`, `C63_decode_partial`, `C63_round_trip_partial`, `C63_uri`).
* C64: `natural_compare` returns "less" both ways for fractions with different numbers of leading zeros, such as "1.0" and "1.1"
  (`C64_antisym_refuted`, string.cc:203 ignores the sign of `longer_zeros`). It has cycles: "0" < "a" < "{" < "0", as digits come before
  letters but after all other bytes (`C64_transitive_refuted`), and with line 203 repaired also among strings of digits and periods
  (`C64_transitive_digits_refuted`). Sorting by it is therefore undefined. "1.001" is less than "1.0" with or without the repair
  (`C64_fractions_refuted`). Proved: equality, texts without digits, digits against other bytes, numbers and the parts of IP addresses in full (`C64_equal`, `C64_text`,
  `C64_numbers`, `C64_parts`, `C64_classes`), fractions that are not 0 and begin with the same number of zeros, or any with the repair
  (`C64_fractions_partial`, `C64_fractions_text_partial`), antisymmetry where one string has no '.', and always with the repair (`C64_antisym_partial`).
* C65: `hashcode` takes all processors but x86 for big endian at odd addresses (string.cc:285), so that on a little endian ARM equal
  strings at even and odd addresses have different hash codes (`C65_hash_refuted`) and a Json object may not find its key; proved
  for x86 and big endian machines (`C65_hash_partial`). `to_i` returns the remainder modulo 2^64 of integers it cannot hold, 0 for
  2^64 (`C65_to_i_refuted`; the code says "XXX overflow"); the rest is proved (`C65_to_i`, `C65_to_i_other`). Read only: compiler.hh:55
  tests `HAVE_INDIFFERENT_ALIGMENT`, a misspelling, so that the macro cannot be set to 0 from outside on x86.
* C66: timestamps begin again after 2^32 seconds (`C66_timestamp_refuted`), and `update_timestamp` counts past 999999 microseconds, which
  `timestamp_sub` takes for a borrow (`C66_sub_refuted`: 2000000 microseconds are printed). Otherwise proved (`C66_timestamp_partial`, `C66_order`,
  `C66_sub_partial`).
* C32: the empty range at offset 0 of a string row has the index 0, which names the whole row, so that reading it shows everything
  (`C32_col_refuted`). All other ranges read what they name (`C32_col_partial`).
* C67: `erase` and `unset` by key on an object that never had a key index an empty vector (`C67_object_refuted`; `find` tests for
  it, json.cc:201 does not), as in `Json::make_object().unset("a")`. `rehash` doubles the table whenever a chain passes five items, also if
  the keys have equal hash codes, so that a few dozen such keys exhaust memory; the parsers insert the keys they are sent (msgpack.cc:176, json.cc:822) (`C67_space_refuted`).
  Erased items are never reused, so that an object in which keys come and go grows without bound (`C67_erased_refuted`). The rest is
  proved for all hash functions (`C67_object_partial`, `C67_returns_partial`, `C67_erase_at_partial`).

## Reading the theorem names

`_partial`: a proper part of the property; the manifest note and the comment at the theorem say what is missing.
`_refuted`: the property, or the hypothesis-free form of a theorem, is false of the model; the proof is a witness. Every other name: the property or a
stated part of it, with hypotheses that the Example beside it meets.

## Mutation tests

`seeded/LOG.jsonl`: one line per edit of a model definition. `theorems_failed` lists theorems that no longer build, that
is, those depending on a file where a proof broke. A broken proof script shows that the edit is noticed; it does not by
itself show that each listed theorem became false. Edits believed harmless are marked as such in `edit` or `claim_broken`.

## Trusted base

Coq's kernel (8.16.1), and the fidelity of the hand-written model to the C++ text, including the specifications in
`Spec_*.v`. `Print Assumptions` is run beneath every property theorem; for every one of them it prints "Closed under the
global context": no axioms, neither of the standard library nor others. No kernel check is switched off, nothing is
admitted, and there are no functors, module types or plugins.
