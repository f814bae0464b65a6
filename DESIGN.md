# Design: a formal model of STXXL in Rocq/Coq

The code under study is `/repo` (stxxl).  It is read as text; nothing of it is
compiled or run.  Each component is transcribed, function by function, into
small total Gallina functions, and theorems about them are proved for all
inputs, histories and schedules.

## Layout of `rocq/theories`

For a component `X`:

| file          | content |
|---------------|---------|
| `XModel.v`    | the transcription; each definition cites file and lines in `/repo` |
| `XSpec.v`     | the property in terms of an independent abstract object (list, finite map, set of byte ranges, ...) |
| `XProofs.v`   | invariants and proofs |
| `XProps.v`    | only the final theorems (`exact lemma`), examples that show that the hypotheses are satisfiable on a non-trivial case, and `Print Assumptions` |

(small components merge Spec into Model when the spec is one line).

## Conventions

* Values are an arbitrary type `A` where the code is a template; block sizes,
  page sizes and capacities are parameters with only the preconditions the code
  itself asserts.
* Errors (`bad_ext_alloc`, assertion failure, out-of-bounds access, use after
  free, deadlock) are explicit outcomes, so a theorem "result is `Ok`" includes
  the absence of undefined behaviour in the modelled part.
* Asynchronous I/O is modelled with an *adversarial schedule*: requests that
  have been issued sit in a pending list; an oracle (an arbitrary list, over
  which the theorems quantify) decides which are served between any two steps.
  A write captures the content of its buffer when it is served, not when it is
  issued; a read fills its buffer when served.
* Threads are modelled as interleavings of atomic steps, with lock acquisition
  and semaphore waits as blocking steps; theorems quantify over all
  reachable states.
* 64-bit wrap-around is written out where the property is about it; elsewhere
  offsets are unbounded (`nat`, `N` or `Z`) and the simplification is stated.
* When the natural statement is false of the code, the theorem is named
  `..._refuted` and exhibits a witness; the strongest true part is proved next
  to it.  When only a part of a statement is proved the theorem name ends in
  `_partial`.

## Plan per property

| id | component / model | method |
|----|-------------------|--------|
| C01–C04, C06 | `disk_allocator`: free map as sorted association list; `new_blocks`, `delete_block`, `grow_file`, `add_free_region`, `check_corruption` | invariant (sorted, disjoint, coalesced, accounted) by induction over histories; set-of-bytes spec |
| C05 | same model | refutation by witness; exact characterisation of when growth happens |
| C07, C08 | `block_manager` over a list of disk allocators with an arbitrary strategy function | leak witness; refinement for the successful case; counters by induction |
| C09, C10 | strategy functors as functions of index, offsets, permutations | modular arithmetic, pigeonhole via injectivity |
| C11, C12 | write/prefetch/read_write pools + adversarial disk | simulation: logical content map = overlay of pending writes over disk; buffer conservation by permutation invariant |
| C13–C16 | the four stacks | refinement to `list` with push/pop for every history and every I/O schedule |
| C17, C18 | `queue`, `sequence` | refinement to list, over an abstract block store justified by C11 |
| C19–C23 | `vector` page cache | refinement to a total function index -> value; pager choice is an oracle; flush; resize tables; refutations for shrink |
| C24 | `VecWriterModel` (programs on top of `VectorModel`) | invariant: what the vector knows + blocks written behind its back (all of one page) + block in the buffer = logical contents; any history of vector operations and writers, every schedule. Refuted when the vector grows at a block boundary: one-block pages, start in the last block of the last page, one-block vector with two-block pages; these are exactly the exclusions of the positive theorem |
| C25, C26, C60 | `deque`, comparisons, iterators | refinement to list over C19; refutation for `==` and for negative steps |
| C27–C30 | request life cycle, queue worker threads, semaphore, `wait_any` | interleaving state machines; invariants; refutations by explicit schedules |
| C31–C33 | `compute_prefetch_schedule`, `block_prefetcher`, `buffered_writer` | simulation invariant with arbitrary tie-breaking; schedule-universal refinement |
| C34 | loser tree | tournament invariant over the shared consumption sequence |
| C35, C61 | run formation, merge phases, the four alignments of `sort`/`ksort`, ownership of blocks | invariant on allocated blocks, sortedness + permutation; refuted: start inside a block with aligned end (undefined, for every input), file not sorted in place, freed block used afterwards, ksort with two blocks of memory |
| C36 | `StableKsortModel` | buckets as lists of blocks; counting as in C62; result = untouched part ++ sorted permutation ++ untouched part, for inputs described by `even` and `aligned` (StableKsortSpec). Refuted: stability (sort3), definedness (empty bucket, unaligned range) |
| C37 | `PqTreeModel`, `PqModel` | mergers: tournament invariant over the loser tree with growing and shrinking, output = the n largest in order; queue: bag = heap + delete buffer + group buffers + mergers, delete buffer >= group buffers and mergers, group buffer i >= merger i; every history, every configuration in `config_ok`. Refuted by concrete runs outside of it: more than four levels, internal arity below levels + 1, delete buffer larger than group buffers, arity no power of two, external arity 1, no external level, empty write pool |
| C38 | `WinnerModel` | invariant: every inner node holds the result of its game; occurrences of a player form a path from its leaf; refutation for growth |
| C39, C76 | `BtreeModel` | leaves linked in order, splitters separate, nodes between half full and full, registered iterators point to positions in the concatenated leaves; each operation has the effect on that list (insert or remove at a position) and on the iterators; refinement to a sorted list with iterators that are on a key, at the end or invalid (`BtreeSpec`). Refuted: growth beyond the height of the node cache, `end()` after `clear` |
| C77 | `BtreeBulkModel` | invariant of the leaf loop (finished leaves are full to the fill factor, the elements so far are those of the sorted map); chunks of a level keep separators and order, the last one is fused or balanced; the result is in the refinement relation of C39. Refuted: documented fill factors below one half |
| C78–C80 | `NodeCacheModel` | refinement to a map of nodes with a set of fixed nodes and, per pointer, the set of other nodes requested since; a kicked place's node has all other places' nodes in that set (counting). Refuted: `swap` leaves `m_dirty` behind and mixes up two counters; `get_node(b, false)` ends the fixing of `b` |
| C81, C82 | `MatrixModel`, `MatrixObjModel` | over any commutative ring; a block matrix represents a function on (block row, block column, row, column); loops over blocks by a frame lemma (aligned or disjoint operands), the recursions by induction on the fuel with a list of pairwise disjoint temporaries and a polynomial identity (`ring`) per output quarter; objects: reference count = number of variables, distinct block matrices own disjoint blocks; refinement of every statement to `MatrixSpec` (functions), then programs |
| C83 | `MatrixModel` | refuted: the block matrix is passed by value; for all inputs every element is zero |
| C84 | `MatrixFeedModel` | refuted: algorithm 6 multiplies the first operand by itself from five blocks a side on, both algorithms give the second operand of every leaf the height and width of the first, algorithm 3 ignores transposition of its operands; proved where one side has at most two (3) or four (6) blocks, in every program |
| C85 | `MatrixIterModel` | every program with iterators (creation, copy, assignment within one object, all moves, reading, writing, comparison, destruction, statements over objects without a live iterator or in place) is simulated: an iterator is a position, the pointer to the internal block always belongs to the block of the current position; the acquired blocks are exactly those held by live iterators; traversal in both orders, forwards and backwards; refuted: begin() == end() of an empty matrix |
| C86 | `MatrixIterModel` | refuted: an iterator assigned from one over another matrix keeps its block, copies of a matrix share blocks with a live mutable iterator, a change after a copy makes the iterator release a block it never acquired; proved under the restrictions of C85 |
| C87 | `BlockCacheModel` (device with a queue of requests, buffers with identities, pointers of the client) | invariant `Inv` of 22 clauses over cache, queue, buffers, pointers and the state of the specification; every operation and every service of a request keeps it; so for a device that serves requests for one block in order, every program conforms to `BlockCacheSpec` at every schedule. Refuted for a device that does not keep the order (the queues of stxxl with separate read and write queues do not): get_subblock overtakes the pending write of an evicted block |
| C88 | `BlockCacheModel` | refuted: flush exchanges the buffer of a dirty block with one of the write buffer and leaves `valid_subblock_`, a later get_subblock finds garbage; proved: flush leaves all contents on disk, and after flush and clear all contents are found again |
| C89 | `BlockCacheModel` | statistics proved for all programs and devices; swap refuted (`std::swap(n_not_found, obj.n_found)`), proved for everything else |
| C90 | `BlockCacheModel` | refuted: a block that is found is not reported to the pager; proved: without retained blocks the cache is first in first out, the victim is the oldest block not retained |
| C91 | `HashMapRegModel` (iterator objects with addresses, the register per map, the calls that repair iterators) | relation `Sim` between objects and variables of `HashMapRegSpec`: each iterator object that is not `end()` is at its key (`cat`) and registered once under its bucket (`RG`); every operation of the map gives events that `track` iterators of all keys. Refuted in three cases: operator[] leaves iterators at stale positions on disk, an iterator from begin() skips values inserted later, an iterator whose value was erased equals one at a new value of the same key. `_partial`: programs without these cases |
| C92 | `HashMapRegModel` | refuted: the register is swapped with its map pointer, so the iterators are told to belong to the map they were in; reading fails and the destructor throws. Proved without iterators at values |
| C93 | `BufReaderModel` (buffered_reader: the calls of the block cache that each of its functions makes, several readers and other users of the cache) | relation `Sim` between the specification of the cache (C87) and positions of readers (`BufReaderSpec`): a block is retained at most once and only for the reader in it; readers that are kept or fresh have a good pointer. `C93_scan`: an undisturbed reader reads everything. `_partial`: no two readers in one block, no access to a block entered by ++ after another use of the cache, no skip_to the end; each of the exceptions is refuted (also assignments lost because `dirty_` survives eviction) |
| C94 | `VecReaderModel` (vector_bufreader, vector_bufreader_reverse, buf_istream_reverse over the prefetcher of C32, in both directions) | invariant `J` of a stream in either direction: the reverse stream is the stream of C32 over the mirrored blocks (`flip`, `mir`), so that its steps are those of C32; `skipped`: after the skipping the stream starts with the range; `K`: position, rest and stream agree, the stream is open exactly while something is left. `C94_reader`, `C94_reader_progress` (all orders of completion, rewinding at any time, range-based loops), `C94_reverse_stream`, `C94_reverse_stream_progress` |
| C95–C98 | `IoStatsModel` (class stats: every function as a sequence of timestamps and mutex sections run by threads that can be interrupted between them; stats_data; scoped timers) | additive potentials: each section adds a fixed amount to a counter (modulo its width) or, for a clock, to `t_sum - acc * p_begin`, so that sums over the calls or timestamps remain whatever the interleaving (`count_run`, `sum_run`); parallel times: fold over the sorted timestamps counts the ticks with `acc <> 0` (`pfold_count`). C97 is refuted for interrupted threads (time counted twice) and for linuxaio (negative time: the end is entered before the start), proved for uninterrupted calls; C98: reset is refuted during operations, proved at quiet moments |
| C99–C103 | `LinuxAioModel` (the two threads, callers, kernel and destructor of linuxaio_queue as one machine; each semaphore operation, critical section of waiting_mtx and system call is a step; EAGAIN, order and batches of events are choices of the kernel) | one invariant for all executions: three token equations for the semaphores and multiplicity equations for every request (`inv`), plus the order (`fifo`); progress: a second invariant (`live`), a measure that every internal step decreases (`mu`), and an analysis of the states in which nothing moves (`stuck`). Refuted by concrete runs: cancel() deadlocks with the mutex held, EAGAIN deadlocks the two threads, the destructor loses requests, the negotiation doubles, errors are dropped, EAGAIN leaks a reference. `C100_*_partial` lack executions with EAGAIN and with the cancel race |
| C104–C108 | `ConfigModel` (strings are lists of characters; strtoul with its sign, overflow and no-number results; every option of parse_fileio; the singleton with uninitialized members as `None`; exceptions as results, with the state they leave) | induction over strings against a grammar of sizes and a table of units (C104, refuted: no number, negative, overflow); tokens written = tokens split (C105, refuted: flash, queue -2, missing numbers); lines, files and ranges (C106, refuted: add_disk only, two files, half loaded file, std::out_of_range, reused object); invariant on the id counter (C107, refuted: later explicit ids, counter used before initialization); structural induction (C108, refuted: limit 0, limit below the minimum) |
| C109–C112 | `FilesModel` (a file is its list of bytes; the kernel answers every read or write call with a number of bytes, 0 is an error; access behind the last mapped page is a crash; memory that was not written is `None`; one optional file for each offset of a fileperblock_file; descriptors are counted) | loop lemmas over arbitrary answers, against a file as size and bytes (C109, refuted: reads starting at the end throw, reads crossing it do not); simulation over programs that stay inside the file (C110, refuted: outside the file, grown mem_file, read-only set_size); invariant for fixed block lengths and decimal names (C111, refuted: a shorter read truncates, other offsets, size after reopening); case analysis (C112, refuted: leak when the constructor throws, second close of a number after a failed close) |
| C113–C115 | `CmdlineModel` (arguments with the number of the variable they refer to; sscanf and the sizes of `ConfigModel`; numbers out of range are undefined behaviour; the found marks are kept from call to call; wrapping over lists of characters with fuel, no result = not finished) | accepted command lines = lists of items of a grammar, both directions by induction (C113, refuted: dropped characters, lone dash, trailing garbage, negative unsigned, no end of options, help as a value, changed variables after rejection); corollaries on the grammar (C114, refuted: required parameter behind a list, second call); loop lemmas (C115, refuted: never ends when the indentation reaches the width, thus for option texts of 76 characters; words that fit are cut) |
| C116–C118 | `MwmergeModel` (a sequence = elements up to its end + readable elements behind; reading what is not there, source -1 and the null pointer = no result; the goto labels as tables; loser trees with the padding players; all four algorithms and the switch) | every variant takes a list of heads none of which is greater than another head (`steps`), which implies the specification; labels: the tables are checked by computation against `a < b gives <=`, the order of the label is an invariant; trees: tournament invariant over an abstract relation, four instances; combined: the elements counted by prepare_unguarded are taken first and the first sequence to end ends with the last of them. Refuted: null pointer when five sequences are empty, too large lengths with up to four sequences (C116); four combined sequences compare behind the end, stable combined trees use source -1 or read behind the end (C117); stable copied unguarded tree compares wrongly (C118) |
| C119–C121 | `ParMergeModel` (a splitting = rows of offsets; a thread = the sequential merge of the part between two rows and the position it writes to; the target = single writes in any order; a part whose end lies before its beginning = no result) | invariant over the rows: what is before a row is not greater than what is behind it, rows do not cross; then the outputs of the threads form the merge, write to consecutive ranges, and any permutation of the single writes gives the same memory. Exact splitting: rows from C53; without ties between sequences rows with ascending sums do not cross. Sampling: rows are upper bounds of ascending samples, so equivalent elements are never separated; holds for any choice of samples. Refuted: equal elements make the rows of multiseq_partition cross (C119_crossing_refuted, C119_ties_refuted), one thread and not all elements, parts without elements in a loser tree (C119); ties in stable mode (C120); equal elements in five sequences, lengths below the total (C121) |
| C122, C123 | `MwSortModel` (slices of the array, sorted locally; rows of offsets from multiseq_partition or from lower bounds of samples; the array = single writes in any order; reads of samples past the array or parts with end before beginning = no result) | slices concatenate to the array and are not empty; rows as in C119 and C121 (lower bounds never separate equivalent elements); the last row is the end of all slices, so the outputs form a sorted permutation; stability from the stable local sort and the order of slices. Refuted: equal elements with three threads, ties in stable mode with two threads (C122); arrays shorter than 10 times threads squared read past the end, equal elements with five threads (C123) |
| C124, C125 | `PpqModel` (insertion heaps, extract buffer, internal arrays with their membership in the winner tree, external arrays = elements in memory and blocks behind; memory comparisons and numbers of arrived blocks are inputs; a failing assertion = no result); `PpqSpec` is a bag | invariant: heaps and arrays sorted, blocks not empty, and while the extract buffer is not empty all internal arrays are in the tree and nothing external goes before the buffer (`Ppq`, `PpqTake`); the least block minimum bounds what may be merged; every element has a player not after it, so the winner is minimal (`PpqOps`); each wait uses up a block, so refilling reaches the minimum (`PpqEnough`). Refuted: bulk_pop with max_size 0 extracts elements (C124); check_external_level asserts exactly 64 arrays after a skipped merge left 65, bulk_pop_limit asserts that no internal array is empty although pop leaves emptied ones (C125) |
| C126 | `PpqLimitModel` (the queue of C124 with the limit and whether the buffer holds the whole range) | invariant: the buffer holds elements below the limit, none of the rest goes before one of them, and with the whole range nothing below the limit is outside; flushing the buffer gives up the whole range (`PpqLimit`); without the whole range some element below the limit is in the queue, by counting, so fetching finds one (`PpqLimitEnough`). Refuted: limit_pop after a push that flushed the buffer (assertion, in release builds a size below zero); limit_top with the new external array not yet hinted (read of an empty buffer) |
| C127, C128 | `PpqHeapModel` (insertion heaps as arrays with heap_add_size, the counter m_heaps_size, the root the winner tree was last told) | sifting: the array is a heap but for the hole, whose children do not go before its parent (`PpqHeap`); bulks: all but the last heap_add_size elements of each array form a heap, and the counter plus all heap_add_size is the number of elements (`PpqHeapRun`). std::push_heap is undefined (None) unless its precondition holds |
| C129 | `PpqRaceModel` (threads pushing, sorting or waiting for the critical section; the winner tree of C38; the root of a heap being sorted has no value) | refuted: sorting is outside the critical section, and a thread inside compares with the root of a heap another thread sorts. True part: a replay that reads none of these gives what it gives with all roots; all games but those above heaps being flushed are played, and the flush of a heap plays those above it (`PpqRaceProps`) |
| C40 | `HashMapModel`, `HashMapIterModel`, `HashMapBkt` | a key has at most one node in its chain (which decides) and one value in its run; chains and runs sorted by (hash, key), bucket numbers monotone in the hash value (doubles with 53 bits); every operation is one of the specified map, rebuilding and range insertion keep the map; the loop over an iterator gives every value once in order. Proved for histories where lookups meet a bucket and `num_total_` is not below the number of values. Refuted: hash values in the last 1024, maps without buckets (default-constructed, emptied and rehashed), `operator[]` not counting, `erase_oblivious` of absent keys, `equal_range` |
| C41–C43 | varint codec, reader, buffer | algebraic round trip; refutation of the wrapped bounds check |
| C44 | `uint_pair` | arithmetic modulo 2^(32+h) |
| C45 | `counting_ptr` heap model, atomic interleavings | count = number of referencing pointers |
| C46 | addressable queues | refinement to list / priority map |
| C47 | `WbtlModel` (programs over `AsyncIoModel`) | invariant: every unit is free, part of a block or reserved in the current buffer; block contents in a buffer or on disk; for every schedule. Refuted: full file, after an exception, unwritten blocks |
| C48, C64 | `ShuffleModel` | buckets hold a permutation of what was distributed; induction over the recursion depth; endless recursion, empty ranges, large pages and growing memory refuted by concrete runs |
| C49, C68 | `StreamModel` | a stream yields a list; each operator yields the corresponding list function of what its inputs yield. C68 refuted for the original and for the destructor |
| C50, C69, C70, C71 | `SorterModel` | the sorter simulates a bag with phases (`SorterSpec.next`), with two exceptions (`deviates`) that are refuted as C71; invariant: runs on disk hold the sorted parts of the items, blocks of the runs are the only ones allocated; merge passes keep it |
| C51 | `double_blocked_index` | mixed-radix arithmetic |
| C52, C74 | `BlockSchedModel` (programs over `AsyncIoModel`) | refinement to a list of blocks with content; invariant: buffers are a permutation of 1..made, external blocks are owned once, a clean block with an external block has its content there, evictable queue = evictable blocks; every history within the preconditions, every schedule. Destructor frees everything. C74 refuted for free_swappable_block in a simulation |
| C53, C65 | `MultiseqModel` | invariant of the search: borders aligned to the step, everything left of them not greater than what is right, sum equal to the rank up to the step; tie rule refuted by a concrete run |
| C54 | pools, overlapping reads | refutation |
| C55 | asynchronous programs (`AsyncIoModel`) | simulation of every schedule by immediate execution for programs that wait before they touch |
| C56, C57 | sequence: own elements as arguments, streams | refutation; refinement |
| C58, C59 | vector: own elements as arguments, blocks returned | refinement; refutation for one page |
| C62 | `IntKsortModel` | counting sort invariant (each bucket's slice equals the filtered input), sorted groups concatenated; refutation of the shift by the full width |
| C63 | `ScanModel` | the vector split into the blocks before, the start of the first block, the range, the end of the last block and the blocks behind; loops by induction over the parts |
| C66, C67 | `UtilsModel` | binary logarithm, bit lemmas; each step of the hash is injective modulo 2^64 |
| C72 | `MergeFactorModel` | least k with m^k >= n, least f with f^k >= n; number of passes by repeated division |
| C73 | `RunWriteModel` | asynchronous programs; invariant: the elements not yet sorted are in one half of the buffers, all requests under way are writes of the other half to blocks of the result. Refuted: destructor and clear() while a run is under way (the requests are only cancelled, which does not stop one that is being served) |
| C75 | `PqGenModel` | search as first fit over block sizes and block counts; everything but the arity is right, arity at least 8 for elements up to 11 bytes; refuted with 64-byte elements by a run of the queue with the parameters found |

## Trusted base

* The Coq 8.16.1 kernel (and `coqchk`-able `.vo` files).
* Axioms: none.  `Print Assumptions` at the end of each `XProps.v` prints
  "Closed under the global context" for every theorem named in `MANIFEST.json`.
  (A listing of all axioms of the loaded libraries also shows the abstract
  constants of `Coq.ssr.ssrunder`; they come with the standard library's
  `ssreflect` files and no theorem here depends on them.)
* The faithfulness of the transcription, which is by reading: each definition
  cites the lines it stands for and states its simplifications.
* Not modelled anywhere: the C++ language itself (object lifetimes, `std::bad_alloc`,
  compiler), operating-system I/O calls, statistics, and performance.

## Which code is modelled

| model file | code | left out or simplified |
|------------|------|------------------------|
| `DiskAllocModel` | `lib/mng/disk_allocator.cpp`, `disk_allocator.h` | error text; `std::map` as sorted list |
| `BlockMgrModel` | `block_manager.h` (`new_blocks_int`, `new_block`, `delete_block(s)`, counters), disks as in `DiskAllocModel` | configuration parsing, file objects |
| `StrategyModel` | `block_alloc_strategy.h` (all functors, offset iterators) | the generator: any permutation / any number |
| `RwPoolModel` | `write_pool.h`, `prefetch_pool.h`, `read_write_pool.h` | waiting is modelled as serving |
| `IoQueueModel` | `request_queue_impl_qwqr.cpp`, `request_queue_impl_1q.cpp`, `request_with_state.cpp`, `state.h`, `semaphore.h` | the system calls; linuxaio (see `LinuxAioModel`) |
| `WaitAnyModel` | `request_operations.h` (`wait_any`), `onoff_switch.h`, `request_with_waiters.cpp` | |
| `AsyncIoModel` | the interface between containers and the I/O layer: issue, wait, buffers, block ownership | I/O errors; each request is for a whole block |
| `StackModel` | `stack.h` (`normal_stack`, `grow_shrink_stack`, `grow_shrink_stack2`, `migrating_stack`) | swap; `normal_stack` cache as two lists of blocks |
| `SequenceModel` | `queue.h`, `sequence.h` incl. streams | pools replaced by their specification (C11) |
| `VectorModel` | `vector.h` (vector without iterators), `pager.h` | swap, copy, file-backed growth (C21 is in `DblIndexModel`) |
| `DequeModel` | `deque.h` with iterators and comparisons | swap |
| `ScheduleModel` | `lib/algo/async_schedule.cpp` | the wrappers in `async_schedule.h` that copy device ids |
| `BufIoModel` | `block_prefetcher.h`, `buf_istream.h`, `buf_writer.h`, `buf_ostream.h` | `do_after_fetch` functor; `buf_istream_reverse.h`; a user is a list of operations, the heap of the writer is any permutation, poll and `wait_any` (per its specification) answer anything consistent |
| `OrderLib`, `LoserModel` | `algo/losertree.h`, `algo/run_cursor.h` | `merge_unrolled` is a loop over levels; the prefetcher is a list of blocks in consumption order (C32) |
| `SortModel` | `algo/sort.h`, `algo/inmemsort.h`, `algo/ksort.h` (except the radix sort inside a run) | reads and writes happen one after the other (C32, C33 justify prefetching and buffered writing); allocator, in-memory sort and merge factor are parameters with their specification; parallel merging; order checks |
| `WinnerModel` | `common/winner_tree.h` (all of it) | `1 << n` is exact; timers; the comparator reads the current value of a player and is undefined for a player without a value; growing ends in undefined behaviour because of the unsigned loop |
| `IntKsortModel` | `algo/intksort.h` (all but sort5, which is disabled), the in-memory part of `create_runs` in `algo/ksort.h` | `std::sort` is a parameter that sorts; key types of 32 or 64 bits; array bounds checked; shifting by the full width undefined |
| `ScanModel` | `algo/scan.h` | the streams deliver and store whole blocks in order (C33); writing an element before it was read is an error (race); vector contents as a list of whole blocks |
| `ShuffleModel` | `algo/random_shuffle.h` (version for vectors) | stacks as lists, generator and `std::random_shuffle` as parameters, additions of byte counts without overflow |
| `MultiseqModel` | `parallel/multiseq_selection.h`, `common/utils.h` `round_up_to_power_of_two(n)` | queues as lists, `std::sort` and `std::lower_bound` by their specification, unbounded indices |
| `UtilsModel` | `common/utils.h`: `ilog2_floor`, `ilog2_ceil`, `div_ceil`, `round_up_to_power_of_two(n, power)`, `longhash1` | 64-bit unsigned types only |
| `UintPairModel` | `uint_types.h` | byte layout |
| `BinBufModel` | `binary_buffer.h` | allocation |
| `DblIndexModel` | `vector.h` (`double_blocked_index`, file length arithmetic) | |
| `CountPtrModel` | `counting_ptr.h` | |
| `AddrQueueModel` | `addressable_queues.h` | heap order of `std::set` as list |
| `BlockSchedModel` | `mng/block_scheduler.h`: `swappable_block`, `block_scheduler`, the algorithms `online_lru`, `simulation`, `offline_lfd`; `common/addressable_queues.h` as used there | `offline_lru_prefetching`; choice of disk; overflow of reference counts and time steps (priorities are 64 bit); buffers are numbers, `delete[]` of them |
| `SorterModel` | `stream/sorted_runs.h`; `stream/sort_stream.h`: basic_runs_creator, runs_creator<use_push>, runs_creator<from_sorted_sequences>, basic_runs_merger, sort; `containers/sorter.h` | transfers are done at once (async part: see C32, C33); do_parallel_merge not modelled; optimal_merge_factor is a parameter between 2 and its second argument (true of the exact value by C72; the floating point code leaves the range e.g. for 100000 runs and arity 10, where it gives 11 and the assertion in sort_stream.h:1356 fails); state after an exception |
| `RunWriteModel` | `stream/sort_stream.h` 413-692: requests, buffers and blocks of runs_creator<use_push> | cancel() has no effect (it has none on a request that is being served); deleted memory is overwritten at once; new[] failing; requests to one block are not kept in order (request_queue_impl_qwqr keeps them, linuxaio does not) |
| `StableKsortModel` | `algo/stable_ksort.h` | requests; identifiers of the blocks of buckets (bid_sequence); an uninitialised or left over counter is a failure; overflow of sizes |
| `WbtlModel` | `lib/io/wbtl_file.cpp` 33-345: `set_size`, `discard`, `_add_free_region`, `sread`, `swrite`, `get_next_write_block`, `check_corruption`; the write of a buffer in the background | `free_bytes`, messages, `storage->discard`, destructor, several threads |
| `VecWriterModel` | `containers/vector.h` 2380-2591: `vector_bufwriter` through `operator <<` and `finish()`; `buf_ostream` with one block written synchronously | several stream blocks on their way (C66), raw `operator *` / `++`, use after `finish()` |
| `MergeFactorModel` | `algo/sort_base.h` | exact arithmetic; with doubles log(125)/log(5) is rounded to more than 3, giving four passes |
| `StreamModel` | `stream/stream.h`: iterator2stream, generator2stream, vector_iterator2stream(_sr), transform, make_tuple, materialize (all variants), discard; `stream/choose.h`, `stream/unique.h` | inputs of transform and make_tuple are any number of streams of one type; vectors as in `ScanModel`; heap of the _sr variant is the list of live objects |
| `HashMapModel`, `HashMapIterModel`, `HashMapBkt` | `containers/hash_map/hash_map.h` (all operations), `util.h` (node, bucket, reader, writer, value stream), `iterator.h` (without registration) | block cache (see C87); `iterator_map` and swap (see `HashMapRegModel`); 32-bit `size_t`; prefetching; the float computation of the number of buckets is a parameter; node allocator; statistics |
| `HashMapRegModel` | `containers/hash_map/iterator.h`, `iterator_map.h`, `swap` of `hash_map.h` | temporaries of an operation that returns an iterator are one object; the multimap gives iterators of a bucket newest first; references of readers to the block cache left out |
| `BlockCacheModel` | `containers/hash_map/block_cache.h` (all but printing and the disabled dump), `containers/pager.h` 65-104 | the unordered map is an association list traversed in an arbitrary order; block identifiers are numbers denoting disjoint regions; cancelling a request removes it or comes too late; I/O errors not modelled |
| `BufReaderModel` | `containers/hash_map/util.h` 93-298 (`buffered_reader`) over `BlockCacheModel` | an exception of the cache ends the program; page size and number of prefetched pages are parameters; which readers the map opens is up to the program |
| `VecReaderModel` | `containers/vector.h` 1919-2360 (`vector_bufreader`, `vector_bufreader_iterator`, `vector_bufreader_reverse`), `mng/buf_istream_reverse.h` 34-162, over `BufIoModel` | iterators of the vector are offsets; the flush of the vector in the constructor is C20: the content is that of the blocks and nobody writes to them while a reader exists; `block()` and `next_block()` (not to be mixed with ++, says the code) and `operator ->` are not modelled; dereferencing a null stream is an error; assertions are on |
| `IoStatsModel` | `io/iostats.h` 43-390, 428-534, `lib/io/iostats.cpp` 29-330 | time in integer ticks, exact sums; number of running operations unbounded; sections under a mutex are atomic; snapshots only while no call is in progress; output, wait log and the formatting of numbers are not modelled |
| `LinuxAioModel` | `lib/io/linuxaio_queue.cpp` 35-261, `lib/io/linuxaio_request.cpp` 27-107, `lib/io/request_queue_impl_worker.cpp` 48-81, `common/semaphore.h` 41-58 | posted_mtx (protects nothing); failures of system calls other than EAGAIN; statistics calls (see IoStatsModel); cancel_aio (nobody calls it); no calls of the queue once the destructor runs; completion handlers |
| `ConfigModel` | `lib/mng/config.cpp` 55-66, 116-194, 213-493, `mng/config.h` 112-269, `lib/common/utils.cpp` 24-92, `common/utils.h` 53-91, `lib/io/create_file.cpp` 59-68, `lib/mng/block_manager.cpp` 46-56 | find_config (which file), destructor and total_size, separators longer than one character, NUL in strings, Windows branches |
| `FilesModel` | `lib/io/syscall_file.cpp` 26-111, `lib/io/ufs_file_base.cpp` 32-178, 198-256, `lib/io/mmap_file.cpp` 25-64, `lib/io/mem_file.cpp` 22-88, `lib/io/fileperblock_file.cpp` 43-92, 117-130 | fd_mutex, alignment for O_DIRECT, a build without O_DIRECT (where REQUIRE_DIRECT only prints an error), device nodes, export_files, close_remove, Windows and Mac OS branches |
| `CmdlineModel` | `lib/common/cmdline.cpp` 22-60, 96-126, 160-304, `common/cmdline.h` 49-382, 417-447 | argument_double, messages, print_result, overflow of size_t in the wrapping |
| `MwmergeModel` | `parallel/multiway_merge.h` 58-1340, `parallel/merge.h` 96-169, `parallel/losertree.h` | front ends (1655-), debug assertions, merge_advance_usual, memory of the trees (LoserTreeCopyBase destroys losers[0] twice and uses delete for memory of operator new), MWM_ALGORITHM_LAST, output iterators |
| `ParMergeModel` | `parallel/multiway_merge.h` 1357-1638, `parallel/equally_split.h` | the double arithmetic of the sample index (a parameter), timing, the OpenMP runtime giving fewer threads than asked for, front ends and STXXL_PARALLEL_CONDITION, parallel_merge_advance (its call does not match the signature, so it cannot be instantiated) |
| `MwSortModel` | `parallel/multiway_mergesort.h` 110-384 | the STXXL_MULTIWAY_MERGESORT_COPY_LAST variant, memory management (operator new without destruction of the elements), timing, the OpenMP runtime giving fewer threads than asked for; std::sort, std::stable_sort and std::lower_bound are taken as specified |
| `PpqModel` | `containers/parallel_priority_queue.h`: push, top, pop, bulk_pop, bulk_pop_limit and the flushing, merging, refilling and cleaning they call (lines at each definition) | bulk_push outside limit sessions (see `PpqHeapModel`), aggregate_push, merge rounds inside check_external_level and external_array_writer (one merge of all elements), hints, pools and memory accounting (inputs), array layout of heaps and winner trees, statistics, the debug assertion n_elements < m_extract_buffer_limit in bulk_pop (those of bulk_pop_limit are a separate definition), merging no external arrays at all (leaves an empty one here), sums in `int` by std::accumulate (2^31 elements), OpenMP; multiway_merge and sorting are hypotheses (merge: instance from C116) |
| `PpqLimitModel` | `containers/parallel_priority_queue.h` 3157-3271 | the heap order given up during a session and restored in bulk_push_end (heaps are sorted lists; see `PpqHeapModel`), m_heaps_size lagging behind, parallel limit_push by several threads |
| `PpqHeapModel` | `containers/parallel_priority_queue.h` 2267-2295, 2599-2808, 3025-3043, 3912-3965 | concurrent calls (one sequence of calls), std::push_heap's own code (the source's push_heap, which is documented as identical), pops, the internal array a flush creates and memory (in `PpqModel`), inner nodes of the winner tree, delayed hints; very large bulks and branches switched off in the source |
| `PpqRaceModel` | `containers/parallel_priority_queue.h` 3912-3965 as called by concurrent bulk_push, 1642-1650, with `WinnerModel` | the rest of the critical section, the head tree (which reads the root of the winning heap too), weak memory: a read of a heap being sorted is undefined |
| `BtreeModel` | `containers/btree/`: `btree.h` (all but prefetching), `node.h`, `leaf.h`, `iterator.h`, `iterator_map.h` | node caches transparent, inner nodes inside their parents; `std::map` as sorted list |
| `BtreeBulkModel` | `containers/btree/btree.h` 262-430, 965-1038 | fill factors as exact fractions |
| `NodeCacheModel` | `containers/btree/node_cache.h` (all but printing), `containers/pager.h` 65-104 | requests complete at once; `m_bid2node` an association list; block identifiers from an oracle; pointers are places; not modelled: the parent pointers set by `change_btree_pointers` |
| `MatrixModel`, `MatrixObjModel` | `containers/matrix.h` (swappable_block_matrix, matrix, without iterators), `containers/matrix_arithmetic.h` (element_op, naive, recursive, strassen_winograd*, the quarterers, vector products, construction from vectors), `containers/matrix_low_level.h` (generic part), `common/counting_ptr.h` (unique, unify) | the block scheduler is the list of the contents of its blocks (acquire, release, swapping: `BlockSchedModel`); identifiers are not reused; not modelled: BLAS, statistics, the simulation run before a product, feedable algorithms 3 and 6 |
| `MatrixFeedModel` | `containers/matrix_arithmetic.h` 100-1014, 1422-1600 (static_quadtree, feedable_strassen_winograd, its block grained variant, matrix_to_quadtree, choice of levels), `matrix.h` multiply | whole blocks are fed instead of single elements; levels other than 2 and 3, which the default macros exclude |
| `MatrixIterModel` | `containers/matrix.h` 423-712 (matrix_iterator, row-major and column-major), begin, end, operator () of matrix | the pointer to an internal block is the number of the block; acquires are counted in a list; const iterators have the same code |
| `PqTreeModel` | `containers/pq_mergers.h`, `containers/pq_int_merger.h`, `containers/pq_ext_merger.h`: merge2/3/4 iterators, loser tree (`int_merger`, `ext_merger`), insertion, compaction, doubling | a sequence is the list of its remaining elements followed by sentinels; blocks of `sequence_state` and their prefetching; the parallel variants; `multi_merge_f` unrolled over levels is a loop |
| `PqModel` | `containers/priority_queue.h` (all of class `priority_queue`), `append_merger` of `pq_ext_merger.h`, `internal_priority_queue` of `pq_helpers.h` | `std::push_heap`, `std::pop_heap`, sort by their contracts; the pool by C11; sizes unbounded; memory consumption; dead code in `pq_losertree.h` |
| `PqGenModel` | `containers/priority_queue.h` 860-1038 | the C++ rules for partial specializations, read off for the one ambiguous case |

## Reading seeded/LOG.jsonl

One line per edit of the model that was tried in a scratch copy.

- `first_failure`: the only failure that was observed, the first lemma whose proof script no longer goes through; the build stops there.
- `theorems_failed`: the claims that use this lemma, found by name. They could not be checked for the edited program; this was not
  observed one by one.
- A failing script is weaker evidence than a false theorem: scripts also fail for some edits that break no claim (see the `note`s).
- `result`: `proof failed`, `survived`, or `edit does not compile in the model` (no evidence at all). Lines without it are `proof failed`.
- The first 604 lines contain only edits that failed: survivors, controls and edits taken to be equivalent were left out when they
  were logged. The 25 edits concerned were found by comparing the lists of edits with the log, run again and added with their
  outcome behind line 604. One more (SortModel.sort_external) was recovered from the output of the run. Edits made before these lists were kept, if they survived, are not recoverable.
- One of the 25 showed a weak statement: C32_istream had a hypothesis in terms of the helper `is_nbuf` of the model. The hypothesis is now
  `1 <= ndisks \/ nbuf <> 1`, also in C33_round_trip and C94_reverse_stream.
