{"id": "C01", "title": "Live disk blocks never overlap", "statement": "After any history of block allocations and frees (each free returning a region that is currently allocated) on one disk, all currently allocated blocks are pairwise disjoint byte ranges that lie inside the disk file, and a new allocation only hands out bytes that no live block occupies.", "quantifier": "every sequence of allocate(list of block sizes)/free operations, every initial disk size, autogrow on or off", "why_tests_cant": "The overlap only appears for particular fragmentation patterns of the free list; tests exercise a handful of histories out of an unbounded set.", "anchors": [{"file": "include/stxxl/bits/mng/disk_allocator.h", "symbols": ["disk_allocator::new_blocks", "disk_allocator::grow_file", "disk_allocator::delete_block"]}, {"file": "lib/mng/disk_allocator.cpp", "symbols": ["disk_allocator::add_free_region"]}]}
{"id": "C02", "title": "Disk space accounting is exact", "statement": "At every point, the free bytes reported by a disk plus the bytes of all live blocks equal the size of the disk file, i.e. no byte is leaked or counted twice by splitting, coalescing or growing.", "quantifier": "every history of allocations, frees and growth", "why_tests_cant": "A leak of a few bytes needs a particular split/coalesce interleaving; a finite set of runs cannot exclude all of them.", "anchors": [{"file": "include/stxxl/bits/mng/disk_allocator.h", "symbols": ["disk_allocator::get_free_bytes", "disk_allocator::get_used_bytes", "disk_allocator::new_blocks"]}, {"file": "lib/mng/disk_allocator.cpp", "symbols": ["disk_allocator::add_free_region"]}]}
{"id": "C03", "title": "Double frees are always detected and harmless", "statement": "Freeing a non-empty region that overlaps a region that is already free always raises bad_ext_alloc and leaves the allocator unchanged; freeing a live region never raises.", "quantifier": "every reachable allocator state and every (offset,size) pair", "why_tests_cant": "Detection looks only at the two neighbouring free regions; that this suffices for every state is an invariant argument.", "anchors": [{"file": "lib/mng/disk_allocator.cpp", "symbols": ["disk_allocator::check_corruption", "disk_allocator::add_free_region"]}]}
{"id": "C04", "title": "Free list stays maximally coalesced", "statement": "The set of free regions is always kept sorted, disjoint, non-empty and with no two adjacent regions, so that a contiguous request is satisfied without growing the file whenever a contiguous free area of that size exists.", "quantifier": "every history of allocations and frees", "why_tests_cant": "Requires every coalescing case (left, right, both, none) in every position of an arbitrary map.", "anchors": [{"file": "lib/mng/disk_allocator.cpp", "symbols": ["disk_allocator::add_free_region"]}, {"file": "include/stxxl/bits/mng/disk_allocator.h", "symbols": ["disk_allocator::new_blocks", "FirstFit"]}]}
{"id": "C05", "title": "A fixed-size disk is never enlarged", "statement": "If autogrow is off, allocating blocks never changes the size of the disk file: a request either is served from the existing free space or fails with bad_ext_alloc.", "quantifier": "every allocator state with autogrow off, every request", "why_tests_cant": "Only fragmented free lists trigger the extra growth path.", "anchors": [{"file": "include/stxxl/bits/mng/disk_allocator.h", "symbols": ["disk_allocator::new_blocks", "disk_allocator::grow_file"]}]}
{"id": "C06", "title": "Failed allocation on one disk has no effect", "statement": "If an allocation on a single disk raises an error because the space is exhausted, the free space, the file size and all live blocks are exactly as before; if enough free bytes are available the allocation succeeds however fragmented the disk is.", "quantifier": "every allocator state, every request list", "why_tests_cant": "Success under arbitrary fragmentation is a termination and coverage argument over recursive halving.", "anchors": [{"file": "include/stxxl/bits/mng/disk_allocator.h", "symbols": ["disk_allocator::new_blocks"]}]}
{"id": "C07", "title": "Failed multi-disk allocation leaks nothing", "statement": "If block_manager::new_blocks throws because some disk is full, no disk space remains allocated on the other disks.", "quantifier": "every number of disks, every fill level, every allocation strategy", "why_tests_cant": "Requires running out of space on one particular disk after others succeeded.", "anchors": [{"file": "include/stxxl/bits/mng/block_manager.h", "symbols": ["block_manager::new_blocks_int", "block_manager::new_blocks"]}]}
{"id": "C08", "title": "Block manager hands out one distinct region per requested block and its counters are exact", "statement": "new_blocks assigns every requested position exactly one block, on the disk the allocation strategy names for that position; the current, total and maximum allocation counters equal the live bytes, the bytes ever allocated and the high-water mark.", "quantifier": "every number of disks, every strategy function, every history of allocations/frees", "why_tests_cant": "The distribution loop interleaves per-disk results; a mismatch shows up only for particular strategies and counts.", "anchors": [{"file": "include/stxxl/bits/mng/block_manager.h", "symbols": ["block_manager::new_blocks_int", "block_manager::delete_block", "block_manager::delete_blocks"]}]}
{"id": "C09", "title": "Allocation strategies balance disks", "statement": "Striping, randomized striping (SR) and randomized cycling (RC) always name a disk inside the configured range, place any D consecutive blocks on D different disks, and so keep the number of blocks per disk within one of each other; the fully randomized and single-disk strategies stay in range.", "quantifier": "every disk range, every block index, every random offset/permutation", "why_tests_cant": "Depends on modular arithmetic for all indices and on the random choices.", "anchors": [{"file": "include/stxxl/bits/mng/block_alloc.h", "symbols": ["striping", "fully_random", "simple_random", "random_cyclic", "offset_allocator", "single_disk"]}]}
{"id": "C10", "title": "Interleaved strategies balance every run", "statement": "For each run r, the interleaved allocation strategies place any D consecutive blocks of run r on D different disks, all inside the range.", "quantifier": "every number of runs, disk range, block index, random choice", "why_tests_cant": "Modular arithmetic over all indices and random permutations.", "anchors": [{"file": "include/stxxl/bits/mng/block_alloc_interleaved.h", "symbols": ["interleaved_striping", "interleaved_simple_random", "interleaved_random_cyclic", "first_disk_only"]}]}
{"id": "C11", "title": "Block pool returns the latest write", "statement": "Through a read_write_pool (write buffers + prefetch buffers), reading a block id always yields the content most recently written through the pool (or what was on disk if none), no matter when the asynchronous writes and prefetches complete, are cancelled or are stolen, provided the client waits for a read of a block before its next operation on that block.", "quantifier": "every sequence of write/hint/invalidate/read/resize calls and every completion order of the pending requests", "why_tests_cant": "The result depends on the I/O schedule, which tests cannot control.", "anchors": [{"file": "include/stxxl/bits/mng/read_write_pool.h", "symbols": ["read_write_pool::write", "read_write_pool::read", "read_write_pool::hint"]}, {"file": "include/stxxl/bits/mng/write_pool.h", "symbols": ["write_pool::write", "write_pool::steal", "write_pool::steal_request"]}, {"file": "include/stxxl/bits/mng/prefetch_pool.h", "symbols": ["prefetch_pool::hint", "prefetch_pool::read", "prefetch_pool::invalidate"]}]}
{"id": "C12", "title": "Block pools conserve their buffers", "statement": "The number of blocks owned by the write pool plus the prefetch pool (free, busy, or prefetched) is unchanged by every operation other than resizing/adding, and no buffer is ever in two places.", "quantifier": "every sequence of pool operations and every I/O schedule", "why_tests_cant": "Leaks or aliasing occur only for particular hit/miss/steal combinations.", "anchors": [{"file": "include/stxxl/bits/mng/write_pool.h", "symbols": ["write_pool"]}, {"file": "include/stxxl/bits/mng/prefetch_pool.h", "symbols": ["prefetch_pool"]}, {"file": "include/stxxl/bits/mng/read_write_pool.h", "symbols": ["read_write_pool"]}]}
{"id": "C13", "title": "normal_stack is LIFO", "statement": "The double-buffered external stack behaves exactly like an in-memory stack: push/top/pop/size agree for every sequence of operations.", "quantifier": "every sequence of push/pop, every block size and number of blocks per page", "why_tests_cant": "Page boundary crossings in both directions combine with the double-buffer swap in unboundedly many ways.", "anchors": [{"file": "include/stxxl/bits/containers/stack.h", "symbols": ["normal_stack::push", "normal_stack::pop", "normal_stack::top", "normal_stack::size"]}]}
{"id": "C14", "title": "grow_shrink_stack is LIFO under asynchronous I/O", "statement": "The external stack with overlapped writing and prefetching behaves like an in-memory stack for every completion order of its background I/O.", "quantifier": "every sequence of push/pop, every block/page size, every I/O schedule", "why_tests_cant": "Correctness depends on waiting for the right request before reusing a buffer.", "anchors": [{"file": "include/stxxl/bits/containers/stack.h", "symbols": ["grow_shrink_stack::push", "grow_shrink_stack::pop"]}]}
{"id": "C15", "title": "grow_shrink_stack2 is LIFO under asynchronous I/O", "statement": "The pool-based external stack behaves like an in-memory stack for every prefetch setting and every completion order of its background I/O.", "quantifier": "every sequence of push/pop/set_prefetch_aggr, every I/O schedule", "why_tests_cant": "Interplay of prefetch hints with dirty write-pool blocks is schedule dependent.", "anchors": [{"file": "include/stxxl/bits/containers/stack.h", "symbols": ["grow_shrink_stack2::push", "grow_shrink_stack2::pop", "grow_shrink_stack2::top", "grow_shrink_stack2::set_prefetch_aggr"]}]}
{"id": "C16", "title": "migrating_stack keeps all elements across migration", "statement": "A migrating stack behaves like an in-memory stack for every history, in particular the one-time move from internal to external memory preserves content and order.", "quantifier": "every sequence of push/pop, every migration threshold", "why_tests_cant": "Migration occurs at one particular size; histories around it are unbounded.", "anchors": [{"file": "include/stxxl/bits/containers/stack.h", "symbols": ["migrating_stack::push", "migrating_stack::pop", "migrating_stack::top", "migrating_stack::size"]}]}
{"id": "C17", "title": "External queue is FIFO", "statement": "The external queue behaves exactly like an in-memory FIFO queue (push, front, back, pop, size) whatever the block boundaries crossed and whatever the background I/O order.", "quantifier": "every sequence of push/pop, every block size, prefetch depth and I/O schedule", "why_tests_cant": "Five block-boundary cases interact with prefetching.", "anchors": [{"file": "include/stxxl/bits/containers/queue.h", "symbols": ["queue::push", "queue::pop", "queue::front", "queue::back", "queue::size"]}]}
{"id": "C18", "title": "External sequence is a double-ended queue", "statement": "stxxl::sequence behaves exactly like an in-memory deque under push/pop at both ends, whatever block boundaries are crossed.", "quantifier": "every sequence of push_front/push_back/pop_front/pop_back, every block size and I/O schedule", "why_tests_cant": "Growing at both ends with one- and two-block special cases gives unboundedly many boundary situations.", "anchors": [{"file": "include/stxxl/bits/containers/sequence.h", "symbols": ["sequence::push_front", "sequence::push_back", "sequence::pop_front", "sequence::pop_back"]}]}
{"id": "C19", "title": "vector reads return the last write for every page replacement", "statement": "For stxxl::vector, reading element i returns the value most recently written to index i (const and non-const access), for every pager decision, cache size, page size and interleaving of reads, writes, push/pop, flush and growth.", "quantifier": "every operation sequence, every number of cached pages, every replacement choice", "why_tests_cant": "Lost updates appear only for particular eviction orders.", "anchors": [{"file": "include/stxxl/bits/containers/vector.h", "symbols": ["vector::element", "vector::const_element", "vector::read_page", "vector::write_page", "vector::push_back", "vector::pop_back", "vector::resize"]}, {"file": "include/stxxl/bits/containers/pager.h", "symbols": ["lru_pager", "random_pager"]}]}
{"id": "C20", "title": "vector::flush makes the content durable", "statement": "After flush() the blocks on disk contain exactly the current value of every element that was ever written, so a vector rebuilt over the same blocks reads identical values.", "quantifier": "every operation sequence followed by flush (crash point right after flush)", "why_tests_cant": "Dirty-page tracking must be right for every history.", "anchors": [{"file": "include/stxxl/bits/containers/vector.h", "symbols": ["vector::flush", "vector::write_page", "vector::set_content"]}]}
{"id": "C21", "title": "File-backed vector remembers its size", "statement": "A vector bound to a file records its exact element count in the file length; reopening the file gives the same size.", "quantifier": "every element count, element size, block size (also when block padding exists)", "why_tests_cant": "Arithmetic over all sizes, including non-multiples and paddings.", "anchors": [{"file": "include/stxxl/bits/containers/vector.h", "symbols": ["vector::file_length", "vector::size_from_file_length"]}]}
{"id": "C22", "title": "Shrinking a vector returns its disk space", "statement": "resize(n, true) to a smaller size gives the disk blocks no longer needed back to the block manager.", "quantifier": "every old and new size", "why_tests_cant": "A leak has no visible effect until the disk fills.", "anchors": [{"file": "include/stxxl/bits/containers/vector.h", "symbols": ["vector::_resize_shrink_capacity"]}]}
{"id": "C23", "title": "Resizing a vector keeps its page table consistent", "statement": "After any sequence of resize/reserve/shrink operations, every page accessed, evicted or flushed by the vector is inside the vector's page tables.", "quantifier": "every sequence of resize (with and without capacity shrink), reserve and element accesses", "why_tests_cant": "Only shrink followed by a smaller regrowth with old pages still cached goes wrong.", "anchors": [{"file": "include/stxxl/bits/containers/vector.h", "symbols": ["vector::reserve", "vector::_resize_shrink_capacity", "vector::element", "vector::flush"]}]}
{"id": "C24", "title": "Everything written through vector_bufwriter is readable", "statement": "Elements appended with vector_bufwriter (including growth past the end of the vector) are afterwards read back from the vector, in order.", "quantifier": "every starting offset, number of elements, block and page size", "why_tests_cant": "Depends on coincidence of the vector end with block and page boundaries.", "anchors": [{"file": "include/stxxl/bits/containers/vector.h", "symbols": ["vector_bufwriter::operator *", "vector_bufwriter::operator ++", "vector_bufwriter::finish"]}, {"file": "include/stxxl/bits/mng/buf_ostream.h", "symbols": ["buf_ostream"]}]}
{"id": "C25", "title": "External deque behaves like a deque", "statement": "stxxl::deque behaves like an in-memory deque under push/pop at both ends, random access, resize and iteration, across wrap-around and reallocation.", "quantifier": "every operation sequence on a deque whose vector has the default (lru) pager and at least two cached pages, every I/O schedule", "why_tests_cant": "Wrap-around position and reallocation combine in unboundedly many ways.", "anchors": [{"file": "include/stxxl/bits/containers/deque.h", "symbols": ["deque::push_front", "deque::push_back", "deque::pop_front", "deque::pop_back", "deque::double_array", "deque::resize", "deque::operator []"]}]}
{"id": "C26", "title": "deque equality is content equality", "statement": "Two deques compare equal exactly when they have the same length and the same elements.", "quantifier": "every pair of deques", "why_tests_cant": "Counterexamples need unequal lengths with a common prefix.", "anchors": [{"file": "include/stxxl/bits/containers/deque.h", "symbols": ["operator =="]}]}
{"id": "C27", "title": "Every I/O request completes exactly once", "statement": "Each asynchronous request that was accepted is either served by the disk thread exactly once or cancelled before service, never both; its completion handler runs exactly once if served and waiters are woken exactly when it is finished.", "quantifier": "every interleaving of user threads issuing/cancelling/waiting and the disk worker threads", "why_tests_cant": "A thread-schedule property.", "anchors": [{"file": "lib/io/request_queue_impl_qwqr.cpp", "symbols": ["request_queue_impl_qwqr::worker", "request_queue_impl_qwqr::cancel_request"]}, {"file": "lib/io/request_queue_impl_1q.cpp", "symbols": ["request_queue_impl_1q::worker"]}, {"file": "lib/io/serving_request.cpp", "symbols": ["serving_request::serve"]}, {"file": "lib/io/request_with_state.cpp", "symbols": ["request_with_state::completed", "request_with_state::wait", "request_with_state::cancel"]}]}
{"id": "C28", "title": "Cancelling a request never hangs", "statement": "cancel() on a pending request always returns, and afterwards the disk thread continues to serve the remaining requests.", "quantifier": "every interleaving of a cancelling user thread and the disk worker thread", "why_tests_cant": "The bad interleaving is a narrow race window.", "anchors": [{"file": "lib/io/request_queue_impl_qwqr.cpp", "symbols": ["request_queue_impl_qwqr::cancel_request"]}, {"file": "lib/io/request_queue_impl_1q.cpp", "symbols": ["request_queue_impl_1q::cancel_request"]}, {"file": "include/stxxl/bits/common/semaphore.h", "symbols": ["semaphore::operator --"]}]}
{"id": "C29", "title": "Shutdown serves all accepted requests", "statement": "When the I/O thread of a disk is stopped, every request accepted before is served before the thread exits.", "quantifier": "every interleaving of the stopping thread and the worker thread, every number of pending requests", "why_tests_cant": "The worker must observe the termination flag between two particular instructions.", "anchors": [{"file": "lib/io/request_queue_impl_worker.cpp", "symbols": ["request_queue_impl_worker::stop_thread"]}, {"file": "lib/io/request_queue_impl_qwqr.cpp", "symbols": ["request_queue_impl_qwqr::worker"]}, {"file": "lib/io/request_queue_impl_1q.cpp", "symbols": ["request_queue_impl_1q::worker"]}]}
{"id": "C30", "title": "wait_any returns a finished request", "statement": "wait_any(begin,end) on a non-empty range returns an iterator to a request in that range that is finished, and never misses a completion.", "quantifier": "every interleaving of the completions with the registration of the waiter, including spurious condition-variable wakeups", "why_tests_cant": "Requires completions in the middle of registration and spurious wakeups.", "anchors": [{"file": "include/stxxl/bits/io/request_operations.h", "symbols": ["wait_any"]}, {"file": "include/stxxl/bits/common/onoff_switch.h", "symbols": ["onoff_switch::wait_for_on"]}, {"file": "lib/io/request_with_waiters.cpp", "symbols": ["request_with_waiters::add_waiter", "request_with_waiters::notify_waiters"]}]}
{"id": "C31", "title": "Prefetch schedule is complete and never starves", "statement": "The computed prefetch order reads every block of the sequence exactly once, and block k of the consumption order is always among the first k+m blocks of the prefetch order, so m buffers suffice to consume in order.", "quantifier": "every assignment of blocks to disks, every buffer count m>0, every tie-breaking of the simulated events", "why_tests_cant": "The schedule is produced by a simulation over arbitrary disk assignments.", "anchors": [{"file": "lib/algo/async_schedule.cpp", "symbols": ["simulate_async_write", "compute_prefetch_schedule"]}]}
{"id": "C32", "title": "Prefetching input stream delivers blocks in order", "statement": "block_prefetcher/buf_istream deliver the blocks (and elements) of the sequence in consumption order with their on-disk content, without deadlock, for every completion order of the reads.", "quantifier": "every valid prefetch order, number of buffers and I/O schedule", "why_tests_cant": "Buffer reuse is safe only under an ordering argument over all schedules.", "anchors": [{"file": "include/stxxl/bits/mng/block_prefetcher.h", "symbols": ["block_prefetcher"]}, {"file": "include/stxxl/bits/mng/buf_istream.h", "symbols": ["buf_istream"]}]}
{"id": "C33", "title": "Buffered writer writes every block", "statement": "After flush or destruction of a buffered_writer/buf_ostream, every block handed to it is on disk at its address with the content it had when handed over; obtaining a free buffer never blocks forever.", "quantifier": "every sequence of writes, batch size, buffer count and I/O schedule", "why_tests_cant": "Batching reorders writes and recycles buffers depending on completion times.", "anchors": [{"file": "include/stxxl/bits/mng/buf_writer.h", "symbols": ["buffered_writer::write", "buffered_writer::get_free_block", "buffered_writer::flush"]}, {"file": "include/stxxl/bits/mng/buf_ostream.h", "symbols": ["buf_ostream"]}]}
{"id": "C34", "title": "Loser-tree merging is correct", "statement": "Merging k sorted runs with the loser tree outputs a sorted permutation of all their elements.", "quantifier": "every number of runs (not only powers of two), run lengths and contents, every strict weak order", "why_tests_cant": "The tree invariant must hold for every tournament.", "anchors": [{"file": "include/stxxl/bits/algo/losertree.h", "symbols": ["loser_tree::init_winner", "loser_tree::multi_merge_k", "loser_tree::multi_merge_unrolled"]}]}
{"id": "C35", "title": "External sort sorts", "statement": "stxxl::sort leaves the range with a sorted permutation of its previous content, for every memory size and block size admissible, including ranges that do not start or end at block boundaries.", "quantifier": "every input, block size, run size, merge arity and comparison order", "why_tests_cant": "Multi-level merging and partial blocks depend on sizes in unboundedly many ways.", "anchors": [{"file": "include/stxxl/bits/algo/sort.h", "symbols": ["sort", "sort_local::create_runs", "sort_local::merge_runs", "sort_local::sort_blocks"]}]}
{"id": "C36", "title": "Stable integer sort is stable", "statement": "stable_ksort orders elements by key and keeps the relative order of equal keys.", "quantifier": "every input and key distribution", "why_tests_cant": "Bucket distribution boundaries depend on the whole input.", "anchors": [{"file": "include/stxxl/bits/algo/stable_ksort.h", "symbols": ["stable_ksort"]}]}
{"id": "C37", "title": "Priority queue returns elements in order", "statement": "For every sequence of push and pop, the external priority queue's top/pop return a maximal element (with respect to the comparator) among those inserted and not yet removed, and the multiset of elements is preserved.", "quantifier": "every operation sequence, every tuning of buffer sizes, merge arity and group count", "why_tests_cant": "The elements move through several buffer levels at data-dependent times.", "anchors": [{"file": "include/stxxl/bits/containers/priority_queue.h", "symbols": ["priority_queue::push", "priority_queue::pop", "priority_queue::top"]}]}
{"id": "C38", "title": "Winner tree always names the smallest active player", "statement": "After every activation, deactivation or change followed by its replay, top() names an active player with the smallest value, or none if no player is active; players can be added beyond the initial number of slots.", "quantifier": "every number of players, sequence of operations and comparator", "why_tests_cant": "Tournament invariants over arbitrary trees; growth past the initial size.", "anchors": [{"file": "include/stxxl/bits/common/winner_tree.h", "symbols": ["winner_tree::replay_on_change", "winner_tree::deactivate_player_step", "winner_tree::double_num_slots", "winner_tree::rebuild"]}]}
{"id": "C39", "title": "External B+-tree map behaves like a sorted map", "statement": "Any program on an empty stxxl::map (insertions, operator[], find, count, lower/upper bounds, equal_range, ordered iteration both ways, erasure of keys, iterators and ranges, clear, assignment through iterators) gives the results it gives on an in-memory sorted map.", "quantifier": "every operation sequence that is valid for a sorted map, with keys not above max_value() and fewer elements than the node cache allows the tree to hold; every node and leaf size from 4; every comparator that is a strict weak order; every choice of block identifiers", "why_tests_cant": "Splits, fusions and rebalancing depend on the history.", "anchors": [{"file": "include/stxxl/bits/containers/btree/btree.h", "symbols": ["btree::insert", "btree::erase", "btree::find", "btree::lower_bound", "btree::upper_bound"]}, {"file": "include/stxxl/bits/containers/btree/node.h", "symbols": ["normal_node"]}, {"file": "include/stxxl/bits/containers/btree/leaf.h", "symbols": ["normal_leaf"]}]}
{"id": "C40", "title": "External hash map behaves like a map", "statement": "stxxl::unordered_map find/insert/insert_oblivious/erase/iteration agree with an in-memory map, whether entries are still buffered in memory or already moved to disk, and across rehashing.", "quantifier": "every operation sequence, hash function, buffer size", "why_tests_cant": "Combines in-memory deltas (including tombstones) with external buckets.", "anchors": [{"file": "include/stxxl/bits/containers/hash_map/hash_map.h", "symbols": ["hash_map::insert", "hash_map::erase", "hash_map::find", "hash_map::_rebuild_buckets"]}]}
{"id": "C41", "title": "Variable-length integers round-trip", "statement": "Reading a varint written by put_varint returns the same value and consumes exactly the bytes written, for all 32- and 64-bit values; the encoding never exceeds 5 (10) bytes and corrupt over-long encodings raise an error.", "quantifier": "all 2^32 / 2^64 values, any surrounding data", "why_tests_cant": "Exhaustive testing of 2^64 values is impossible.", "anchors": [{"file": "include/stxxl/bits/common/binary_buffer.h", "symbols": ["binary_buffer::put_varint", "binary_reader::get_varint", "binary_reader::get_varint64"]}]}
{"id": "C42", "title": "binary_reader never reads outside its memory", "statement": "Any sequence of read operations either returns bytes inside the given memory area and advances the cursor by that amount, or raises underflow_error.", "quantifier": "every buffer content, cursor and length argument (including lengths near SIZE_MAX)", "why_tests_cant": "Only extreme lengths make the bounds check wrap around.", "anchors": [{"file": "include/stxxl/bits/common/binary_buffer.h", "symbols": ["binary_reader::check_available", "binary_reader::cursor_available", "binary_reader::skip", "binary_reader::read"]}]}
{"id": "C43", "title": "binary_buffer is an append log", "statement": "The bytes of a binary_buffer are exactly the concatenation of everything appended (with zero padding from align), whatever growth steps happened, and a reader decodes the sequence of items (integers, varints, strings) that was put.", "quantifier": "every sequence of put/append/align/put_string", "why_tests_cant": "Growth schedule and item sequences are unbounded.", "anchors": [{"file": "include/stxxl/bits/common/binary_buffer.h", "symbols": ["binary_buffer::append", "binary_buffer::put", "binary_buffer::put_string", "binary_buffer::align", "binary_buffer::dynalloc"]}]}
{"id": "C44", "title": "40/48-bit integers compute like integers", "statement": "uint40/uint48 conversion, increment, decrement, addition and comparisons agree with arithmetic modulo 2^40 / 2^48.", "quantifier": "all pairs of values", "why_tests_cant": "2^80 pairs; carries between the two halves.", "anchors": [{"file": "include/stxxl/bits/common/uint_types.h", "symbols": ["uint_pair"]}]}
{"id": "C45", "title": "Reference-counted pointers free exactly once", "statement": "An object managed by counting_ptr is destroyed exactly when the last pointer to it goes away or is reassigned, never earlier and never twice, also for self-assignment, swap and unify, and with atomic counting under any interleaving of threads.", "quantifier": "every sequence (interleaving) of pointer operations", "why_tests_cant": "Use-after-free depends on operation order and thread schedule.", "anchors": [{"file": "include/stxxl/bits/common/counting_ptr.h", "symbols": ["counting_ptr", "counted_object", "atomic_counted_object"]}]}
{"id": "C46", "title": "Addressable queues keep order and membership", "statement": "The addressable FIFO queue pops keys in order of their last insertion; the addressable priority queue pops the key with smallest current priority; insert of an existing key repositions it, erase removes it, and each key is present at most once.", "quantifier": "every sequence of insert/erase/pop", "why_tests_cant": "Consistency of two cross-linked containers for every history.", "anchors": [{"file": "include/stxxl/bits/common/addressable_queues.h", "symbols": ["addressable_fifo_queue", "addressable_priority_queue"]}]}
{"id": "C47", "title": "Write-buffered translation layer preserves file content", "statement": "Reading a block at a logical address through wbtl_file returns what was last written there (and not discarded), for every history of reads, writes and discards, while physical blocks in use never overlap.", "quantifier": "every sequence of block reads/writes/discards and growth", "why_tests_cant": "Log-structured relocation with two write buffers; depends on history.", "anchors": [{"file": "lib/io/wbtl_file.cpp", "symbols": ["wbtl_file::swrite", "wbtl_file::sread", "wbtl_file::discard", "wbtl_file::get_next_write_block", "wbtl_file::_add_free_region"]}]}
{"id": "C48", "title": "Random shuffle is a permutation", "statement": "stxxl::random_shuffle leaves a permutation of the original content for every sequence of random numbers.", "quantifier": "every input and every random number sequence", "why_tests_cant": "Random choices cannot be enumerated.", "anchors": [{"file": "include/stxxl/bits/algo/random_shuffle.h", "symbols": ["random_shuffle"]}]}
{"id": "C49", "title": "Stream operators compute what they promise", "statement": "unique removes exactly the adjacent duplicates, transform maps pointwise, choose projects, materialize writes the whole stream in order and round-robin/tuple combinations pair elements position by position.", "quantifier": "every input stream", "why_tests_cant": "Streams of unbounded length.", "anchors": [{"file": "include/stxxl/bits/stream/stream.h", "symbols": ["materialize", "transform", "make_tuple"]}, {"file": "include/stxxl/bits/stream/unique.h", "symbols": ["unique"]}]}
{"id": "C50", "title": "Sorter delivers all pushed items in order", "statement": "Items pushed into stxxl::sorter come out sorted and complete after sort(), also after rewind, in any of the allowed state changes.", "quantifier": "every number of items, memory size and comparison order", "why_tests_cant": "Run formation depends on input size.", "anchors": [{"file": "include/stxxl/bits/containers/sorter.h", "symbols": ["sorter"]}, {"file": "include/stxxl/bits/stream/sort_stream.h", "symbols": ["runs_creator", "runs_merger"]}]}
{"id": "C51", "title": "Two-level index arithmetic is a bijection", "statement": "The (block2, block1, offset) index used by vector iterators converts to and from the linear position without loss, and +=, -=, ++, -- and comparisons act like integer arithmetic on the position.", "quantifier": "every block/page size and every position", "why_tests_cant": "Carry across two levels for all sizes.", "anchors": [{"file": "include/stxxl/bits/containers/vector.h", "symbols": ["double_blocked_index"]}]}
{"id": "C52", "title": "Swappable blocks keep their content", "statement": "Through block_scheduler, a swappable block that was released dirty and is acquired again has the same content, whatever other blocks were swapped in and out in between and whatever number of internal blocks exists.", "quantifier": "every sequence of acquire/release/initialize, every internal memory size", "why_tests_cant": "Eviction order and cache size vary without bound.", "anchors": [{"file": "include/stxxl/bits/mng/block_scheduler.h", "symbols": ["block_scheduler", "swappable_block", "block_scheduler_algorithm_online_lru"]}]}
{"id": "C53", "title": "Exact splitting for parallel merging", "statement": "multiseq_partition/multiseq_selection split k sorted sequences at a given rank so that all elements before the split precede all elements after it and the number before equals the rank.", "quantifier": "every number and length of sequences, rank, comparator with ties", "why_tests_cant": "Combinatorially many shapes.", "anchors": [{"file": "include/stxxl/bits/parallel/multiseq_selection.h", "symbols": ["multiseq_partition", "multiseq_selection"]}]}
{"id": "C54", "title": "Overlapping reads of one block", "statement": "The block pool still delivers the latest written content when a client starts a second read of a block before it has waited for the first one.", "quantifier": "every sequence of pool operations and every completion order", "why_tests_cant": "Needs a read that overtakes a write in another request queue.", "anchors": [{"file": "include/stxxl/bits/mng/prefetch_pool.h", "symbols": ["prefetch_pool::read"]}, {"file": "include/stxxl/bits/mng/write_pool.h", "symbols": ["write_pool::steal_request"]}]}
{"id": "C55", "title": "Block I/O programs that wait cannot observe the I/O schedule", "statement": "A program that uses blocks and buffers through asynchronous requests, and that never touches a buffer or block with a conflicting request it has not waited for, has the same results and leaves the same block contents for every order and time at which the requests are served.", "quantifier": "every program over read/write/wait/new_blocks/delete_blocks, every schedule, every behaviour of other programs on other blocks", "why_tests_cant": "The number of schedules is exponential; a test sees those the kernel happens to choose.", "anchors": [{"file": "include/stxxl/bits/mng/typed_block.h", "symbols": ["typed_block::read", "typed_block::write"]}, {"file": "include/stxxl/bits/io/request_operations.h", "symbols": ["wait_all"]}, {"file": "include/stxxl/bits/mng/block_manager.h", "symbols": ["block_manager::new_blocks", "block_manager::delete_blocks"]}]}
{"id": "C56", "title": "Pushing a reference to an own element", "statement": "queue::push(x), sequence::push_back(x) and push_front(x) add the value that x had when the function was called, also when x refers to the container's own front() or back() (the rotation idiom q.push(q.front())).", "quantifier": "every history of operations, every block size", "why_tests_cant": "Goes wrong only when the block arrangement makes push compact the two blocks first; tests push temporaries.", "anchors": [{"file": "include/stxxl/bits/containers/queue.h", "symbols": ["queue::push"]}, {"file": "include/stxxl/bits/containers/sequence.h", "symbols": ["sequence::push_back", "sequence::push_front"]}]}
{"id": "C57", "title": "Sequence streams deliver the sequence", "statement": "Reading a sequence through get_stream() delivers exactly its elements front to back, through get_reverse_stream() back to front, both end exactly at the end, and neither changes what the sequence contains.", "quantifier": "every history of operations before and after, every block size and I/O schedule", "why_tests_cant": "The streams share the two edge blocks with the sequence and re-read the inner ones; every block arrangement is a separate case.", "anchors": [{"file": "include/stxxl/bits/containers/sequence.h", "symbols": ["sequence::stream", "sequence::reverse_stream", "sequence::get_stream", "sequence::get_reverse_stream"]}]}
{"id": "C58", "title": "A vector's own elements as arguments", "statement": "v[i] = v[j] and v.push_back(v[j]) store the value element j had before the call.", "quantifier": "every history of operations, every block and page size, number of cached pages, pager, order of evaluation", "why_tests_cant": "Wrong only when the second page access evicts the page of the first reference; depends on cache size and pager.", "anchors": [{"file": "include/stxxl/bits/containers/vector.h", "symbols": ["vector::operator []", "vector::push_back", "vector::element"]}, {"file": "include/stxxl/bits/containers/pager.h", "symbols": ["lru_pager", "random_pager"]}]}
{"id": "C59", "title": "A vector returns its disk blocks", "statement": "When a vector that was never shrunk is destroyed, all disk blocks it ever allocated have been given back to the block manager, each once, and no I/O request of the vector is outstanding.", "quantifier": "every history of operations without capacity shrink, every size, pager and I/O schedule", "why_tests_cant": "A leak has no visible effect until the disk fills.", "anchors": [{"file": "include/stxxl/bits/containers/vector.h", "symbols": ["vector::~vector", "vector::clear", "vector::reserve"]}]}
{"id": "C60", "title": "Deque iterators are random access iterators", "statement": "For iterators of a deque with n elements, at positions i, j in 0..n: it + k, it += k, it - k, it -= k, ++ and -- move by exactly that many positions (k of type difference_type, negative or not, as long as the result is in 0..n), j - i is the number of steps, < and == compare positions.", "quantifier": "every vector size below 2^62, every position of the first element, every pair of positions, every k", "why_tests_cant": "Wrong results need the elements to wrap around in the vector and an iterator to cross its start with a negative step, and a vector whose size is no power of two.", "anchors": [{"file": "include/stxxl/bits/containers/deque.h", "symbols": ["deque_iterator::operator +", "deque_iterator::operator -", "deque_iterator::operator +=", "deque_iterator::operator <"]}]}
{"id": "C61", "title": "Key sort sorts", "statement": "stxxl::ksort leaves the range ordered by key with the same multiset of elements, leaves the rest of the vector and all other blocks unchanged and frees all temporary blocks, for every memory size accepted by its check (at least two blocks).", "quantifier": "every input, block size, key size, memory size from two blocks on, and range within the vector", "why_tests_cant": "The size of a run depends on block size, key size and memory; ranges can start and end anywhere in a block; merging has arbitrarily many phases.", "anchors": [{"file": "include/stxxl/bits/algo/ksort.h", "symbols": ["ksort", "ksort_local::ksort_blocks", "ksort_local::merge_runs"]}]}
{"id": "C62", "title": "Radix sort inside a run of ksort", "statement": "While forming a run, ksort's two-level radix sort delivers every element of the run exactly once in ascending key order and writes only inside its arrays.", "quantifier": "every run, key distribution, run capacity, reference size and cache size", "why_tests_cant": "The bucket numbers and shifts depend on the memory size and element size; only some combinations go wrong.", "anchors": [{"file": "include/stxxl/bits/algo/intksort.h", "symbols": ["count", "exclusive_prefix_sum", "classify", "cleanup", "l1sort"]}, {"file": "include/stxxl/bits/algo/ksort.h", "symbols": ["create_runs"]}]}
{"id": "C63", "title": "Scanning algorithms treat exactly their range", "statement": "for_each calls the function object on the elements of [begin,end) in order; for_each_m replaces exactly these elements by what the function object makes of them; generate fills exactly them with the results of the generator; find returns the first match in the range; all other elements of the vector stay as they are, also in blocks only partly covered by the range.", "quantifier": "every vector, block size, range (aligned or not) and stateful function object", "why_tests_cant": "The treatment of the first and last block depends on the alignment of both ends; tests use few combinations.", "anchors": [{"file": "include/stxxl/bits/algo/scan.h", "symbols": ["for_each", "for_each_m", "generate", "find"]}]}
{"id": "C64", "title": "Random shuffle keeps to its memory", "statement": "random_shuffle, called with M bytes of internal memory (at least six blocks and one page), never allocates a temporary array of more than M bytes and never hands more than M bytes to a recursive call.", "quantifier": "every input, random number sequence, block size, page size and M", "why_tests_cant": "The memory accounted for depends on which buckets overflow.", "anchors": [{"file": "include/stxxl/bits/algo/random_shuffle.h", "symbols": ["random_shuffle"]}]}
{"id": "C65", "title": "Equal elements at the split are taken from the front sequences", "statement": "multiseq_partition puts equal elements that straddle the split to the left from the sequences with smaller number first, as its documentation says and stable parallel merging needs.", "quantifier": "every number and length of sorted sequences, rank, comparator with ties", "why_tests_cant": "Needs particular interleavings of equal keys and lengths.", "anchors": [{"file": "include/stxxl/bits/parallel/multiseq_selection.h", "symbols": ["multiseq_partition"]}]}
{"id": "C66", "title": "Integer helpers", "statement": "ilog2_floor, ilog2_ceil, div_ceil, round_up_to_power_of_two(n) and round_up_to_power_of_two(n, power) return the floor and ceiling of the binary logarithm, the rounded-up quotient, the least power of two not below n and the least multiple of 2^power not below n.", "quantifier": "every 64-bit argument whose result fits", "why_tests_cant": "2^64 inputs.", "anchors": [{"file": "include/stxxl/bits/common/utils.h", "symbols": ["ilog2_floor", "ilog2_ceil", "div_ceil", "round_up_to_power_of_two"]}]}
{"id": "C67", "title": "longhash1 does not collide", "statement": "longhash1 maps different 64-bit keys to different 64-bit values.", "quantifier": "every pair of 64-bit keys", "why_tests_cant": "2^128 pairs.", "anchors": [{"file": "include/stxxl/bits/common/utils.h", "symbols": ["longhash1"]}]}
{"id": "C68", "title": "Copies of streams are independent", "statement": "After a vector_iterator2stream or vector_iterator2stream_sr has been copied, both the copy and the original deliver exactly the elements that were still to be delivered, and both can be destroyed.", "quantifier": "every vector, range, block size and position of the stream", "why_tests_cant": "The tests never use a stream again after it has been copied.", "anchors": [{"file": "include/stxxl/bits/stream/stream.h", "symbols": ["vector_iterator2stream", "vector_iterator2stream_sr"]}]}
{"id": "C69", "title": "stream::sort delivers the sorted input", "statement": "stream::sort (basic_runs_creator followed by basic_runs_merger) delivers exactly the items of its input stream in sorted order; afterwards all blocks it allocated are free and blocks of others are unchanged.", "quantifier": "every input, block size, number of disks, and memory size that allows merging two runs", "why_tests_cant": "Which of the five ways the runs are formed and how many merge passes are done depends on input length and memory.", "anchors": [{"file": "include/stxxl/bits/stream/sort_stream.h", "symbols": ["basic_runs_creator::compute_result", "basic_runs_merger::initialize", "basic_runs_merger::merge_recursively", "sort"]}]}
{"id": "C70", "title": "Presorted sequences are merged", "statement": "Sequences pushed in sorted order into runs_creator<from_sorted_sequences>, separated by finish(), come out of runs_merger as one sorted sequence with the same items; empty sequences do not matter.", "quantifier": "every list of sorted sequences, block size, memory size that allows merging two runs", "why_tests_cant": "Lengths relative to the block size and number of sequences are unbounded.", "anchors": [{"file": "include/stxxl/bits/stream/sort_stream.h", "symbols": ["runs_creator<from_sorted_sequences>::push", "runs_creator<from_sorted_sequences>::finish", "basic_runs_merger"]}]}
{"id": "C71", "title": "Sorter state functions before sort()", "statement": "Before sort(), size() of stxxl::sorter is the number of items, also after finish(), and finish_clear() removes all items.", "quantifier": "every sequence of operations in the input state", "why_tests_cant": "The functions are only tested in the output state.", "anchors": [{"file": "include/stxxl/bits/containers/sorter.h", "symbols": ["sorter::size", "sorter::finish", "sorter::finish_clear"]}, {"file": "include/stxxl/bits/stream/sort_stream.h", "symbols": ["runs_creator<use_push>::size", "runs_creator<use_push>::deallocate"]}]}
{"id": "C72", "title": "optimal_merge_factor is possible and optimal", "statement": "If there are more runs than can be merged at once, optimal_merge_factor is at least two and at most the largest possible arity, merging that many runs at a time needs the least possible number of passes, and no smaller factor needs as few.", "quantifier": "every number of runs and largest arity >= 2", "why_tests_cant": "All pairs of numbers.", "anchors": [{"file": "include/stxxl/bits/algo/sort_base.h", "symbols": ["optimal_merge_factor"]}]}
{"id": "C73", "title": "Runs written by push() arrive on disk", "statement": "Whatever the order in which the disks serve the writes: runs_creator<use_push> never touches a buffer that is being written, never waits for less than it has to, the blocks of the runs hold the sorted elements pushed since the last clear() filled up with the greatest value, and after destruction of the creator and of the result all blocks are free and no request of it is under way.", "quantifier": "every sequence of push, result, clear, allocate, deallocate; every block size, memory size, schedule of the requests and choice of blocks", "why_tests_cant": "The writes are nearly always finished when the buffers are used again or deleted.", "anchors": [{"file": "include/stxxl/bits/stream/sort_stream.h", "symbols": ["runs_creator<use_push>::push", "runs_creator<use_push>::compute_result", "runs_creator<use_push>::clear", "runs_creator<use_push>::allocate", "runs_creator<use_push>::deallocate", "runs_creator<use_push>::~runs_creator"]}, {"file": "include/stxxl/bits/stream/sorted_runs.h", "symbols": ["sorted_runs::clear"]}]}
{"id": "C74", "title": "A simulation leaves the blocks alone", "statement": "After block_scheduler was in simulation mode and has been switched back, every swappable block has the content that it had before, whatever calls were simulated, and allocate_swappable_block returns blocks that are not in use.", "quantifier": "every history of calls, every simulated sequence, every internal memory size", "why_tests_cant": "The simulated sequences and the state in which the simulation starts vary without bound.", "anchors": [{"file": "include/stxxl/bits/mng/block_scheduler.h", "symbols": ["block_scheduler_algorithm_simulation", "block_scheduler::free_swappable_block", "block_scheduler::allocate_swappable_block"]}]}
{"id": "C75", "title": "PRIORITY_QUEUE_GENERATOR finds parameters that work", "statement": "If PRIORITY_QUEUE_GENERATOR<ValueType, CompareType, IntMemory, MaxItems, Tune> compiles, its result is a priority queue that returns its elements in order for every sequence of operations.", "quantifier": "every element size, internal memory size, number of elements and tuning parameter; every sequence of operations", "why_tests_cant": "The parameters are searched at compile time, each choice is its own program; the failing ones need a particular order of flushes.", "anchors": [{"file": "include/stxxl/bits/containers/priority_queue.h", "symbols": ["PRIORITY_QUEUE_GENERATOR", "priority_queue_local::find_B_m", "priority_queue_local::compute_N", "priority_queue::empty_insert_heap"]}]}
{"id": "C76", "title": "Iterators of the B+-tree map stay on their elements", "statement": "An iterator of stxxl::map keeps pointing to its element while other elements are inserted and erased, leaves are split, fused and balanced; end() stays the end.", "quantifier": "every operation sequence and every iterator obtained in it whose element was not erased", "why_tests_cant": "Which iterators must be corrected, and how, depends on where leaves split, fuse and balance, so on the whole history and the sizes.", "anchors": [{"file": "include/stxxl/bits/containers/btree/iterator_map.h", "symbols": ["iterator_map::find", "iterator_map::register_iterator"]}, {"file": "include/stxxl/bits/containers/btree/leaf.h", "symbols": ["normal_leaf::split", "normal_leaf::insert", "normal_leaf::erase", "normal_leaf::fuse", "normal_leaf::balance"]}]}
{"id": "C77", "title": "A map constructed from a sorted range equals one filled by insertion", "statement": "The constructor of stxxl::map for a sorted range (range_sorted = true) gives, for fill factors from one half to one, a map which no later sequence of operations can distinguish from an empty map into which the elements of the range were inserted one after the other; of several elements with equal keys the first is kept.", "quantifier": "every sorted range with keys below max_value, all fill factors in [1/2,1], all node sizes, and every valid operation sequence afterwards", "why_tests_cant": "The last leaf and the last node of each level are fused or balanced depending on the number of distinct keys, the sizes and the fill factors; a mistake shows only for particular remainders and only when later operations reach that place.", "anchors": [{"file": "include/stxxl/bits/containers/btree/btree.h", "symbols": ["btree::bulk_construction", "btree::btree"]}, {"file": "include/stxxl/bits/containers/map.h", "symbols": ["map::map"]}]}
{"id": "C78", "title": "The B+-tree's node cache is transparent", "statement": "Programs using node_cache see the nodes as if all of them were always in memory: a pointer from get_node, get_const_node or get_new_node gives the node's last written content as long as the node is fixed or fewer nodes than the cache has places were requested or fixed since the node was requested last; kicking a node, reading it back, prefetching and deleting lose nothing, and after the destructor the external memory holds the last content of every node that was not deleted. The cache's counters satisfy n_read = n_found + n_not_found = number of requests.", "quantifier": "every cache size from 3 on, every node content, every sequence of node requests, writes, deletions, prefetches, fix and unfix operations in which only pointers still usable by the rule above are used", "why_tests_cant": "What is lost depends on the interleaving of usage history, free list, fixed flags and dirty flags; a missing flag update shows only when that place is kicked much later.", "anchors": [{"file": "include/stxxl/bits/containers/btree/node_cache.h", "symbols": ["node_cache::get_new_node", "node_cache::get_node", "node_cache::get_const_node", "node_cache::delete_node", "node_cache::prefetch_node", "node_cache::unfix_node", "node_cache::~node_cache"]}, {"file": "include/stxxl/bits/containers/pager.h", "symbols": ["lru_pager"]}]}
{"id": "C79", "title": "Exchanging two node caches exchanges their content", "statement": "After a.swap(b) of two caches of equal size, a serves the nodes of b and b the nodes of a, without losing any content, and the counters of a are those b had.", "quantifier": "every pair of programs filling the two caches, every program run after the exchange", "why_tests_cant": "The content is lost only if a place is clean in one cache and holds a modified node in the other, and the node is then kicked.", "anchors": [{"file": "include/stxxl/bits/containers/btree/node_cache.h", "symbols": ["node_cache::swap"]}]}
{"id": "C80", "title": "A fixed node stays in the cache until unfix_node", "statement": "A node requested with fix = true keeps its place, and pointers to it stay usable, until unfix_node or delete_node is called for it, however many other nodes are requested.", "quantifier": "every cache size from 3 on, every sequence of operations after fixing", "why_tests_cant": "Depends on an unbounded sequence of requests; a second request for the same node may silently end the fixing.", "anchors": [{"file": "include/stxxl/bits/containers/btree/node_cache.h", "symbols": ["node_cache::get_node", "node_cache::get_const_node", "node_cache::unfix_node"]}]}
{"id": "C81", "title": "Matrix objects behave as values", "statement": "A program over matrix objects (construction, copy, destruction, element assignment and reading, set_zero, transpose, +, -, scalar product, product by algorithms 0, 1, 2, 4 and 5, their assignment forms, product with a column or row vector) prints what the same program prints when every object holds a mathematical matrix of its own: changing one object never changes another, though copies share their blocks until one is changed.", "quantifier": "every program, number of objects, size (also empty, also not a multiple of the block side), block side from 1 on, element values of a commutative ring", "why_tests_cant": "Programs, sizes, block sides and sharing patterns are unbounded, and the representation (transposed flags, uninitialised blocks, reference counts) multiplies the cases.", "anchors": [{"file": "include/stxxl/bits/containers/matrix.h", "symbols": ["matrix", "swappable_block_matrix", "swappable_block_matrix::transpose", "matrix::set_zero", "matrix::operator +="]}, {"file": "include/stxxl/bits/containers/matrix_arithmetic.h", "symbols": ["matrix_operations::element_op", "matrix_operations::recursive_matrix_col_vector_multiply_and_add", "matrix_operations::recursive_matrix_row_vector_multiply_and_add"]}, {"file": "include/stxxl/bits/common/counting_ptr.h", "symbols": ["counting_ptr::unify", "counting_ptr::unique"]}]}
{"id": "C82", "title": "All multiplication algorithms compute the product", "statement": "a.multiply(b, algorithm) has the height of a and the width of b, and its element (i, j) is the sum over k of a(i, k) * b(k, j), for each of the naive, recursive, Strassen-Winograd, Strassen-Winograd with pre-computed zero result and interleaved algorithm, whether or not the operands are stored transposed; which algorithm is used cannot be seen in any output.", "quantifier": "every algorithm in {0, 1, 2, 4, 5}, all sizes, all elements of a commutative ring, all block sides, all transposition states, every program", "why_tests_cant": "The recursion depends on the sizes (odd rows and columns, padding, sizes below the base case), and the seven products are combined by long chains of additions in shared temporaries; only a proof covers every size.", "anchors": [{"file": "include/stxxl/bits/containers/matrix.h", "symbols": ["matrix::multiply"]}, {"file": "include/stxxl/bits/containers/matrix_arithmetic.h", "symbols": ["matrix_operations::naive_multiply_and_add", "matrix_operations::recursive_multiply_and_add", "matrix_operations::strassen_winograd_multiply_and_add", "matrix_operations::strassen_winograd_multiply", "matrix_operations::strassen_winograd_multiply_and_add_interleaved", "swappable_block_matrix_quarterer", "swappable_block_matrix_padding_quarterer"]}, {"file": "include/stxxl/bits/containers/matrix_low_level.h", "symbols": ["low_level_matrix_multiply_and_add"]}]}
{"id": "C83", "title": "A matrix constructed from two vectors is their product", "statement": "matrix(bs, left, right) has height left.size(), width right.size(), and element (i, j) equals left[i] * right[j].", "quantifier": "all vectors, block sides and contents of the block scheduler", "why_tests_cant": "No test constructs a matrix from two vectors; all lengths and values are needed to say what the constructor does.", "anchors": [{"file": "include/stxxl/bits/containers/matrix.h", "symbols": ["matrix::matrix(block_scheduler_type&, const column_vector_type&, const row_vector_type&)"]}, {"file": "include/stxxl/bits/containers/matrix_arithmetic.h", "symbols": ["matrix_operations::recursive_matrix_from_vectors", "matrix_operations::naive_matrix_from_vectors", "matrix_operations::matrix_from_vectors_swappable_block"]}]}
{"id": "C84", "title": "The multi-level multiplication algorithms compute the product", "statement": "a.multiply(b, 3) and a.multiply(b, 6), the multi-level Strassen-Winograd algorithms, return the matrix whose element (i, j) is the sum over k of a(i, k) * b(k, j).", "quantifier": "all sizes, all elements of a commutative ring, all block sides, all transposition states", "why_tests_cant": "The number of levels, the padding and the shapes of the temporaries depend on the sizes; a test with few blocks or square operands takes other paths.", "anchors": [{"file": "include/stxxl/bits/containers/matrix.h", "symbols": ["matrix::multiply"]}, {"file": "include/stxxl/bits/containers/matrix_arithmetic.h", "symbols": ["feedable_strassen_winograd", "feedable_strassen_winograd_block_grained", "matrix_to_quadtree", "matrix_to_quadtree_block_grained", "static_quadtree", "matrix_operations::multi_level_strassen_winograd_multiply_and_add", "matrix_operations::multi_level_strassen_winograd_multiply_and_add_block_grained", "matrix_operations::choose_level_for_feedable_sw", "matrix_operations::use_feedable_sw", "matrix_operations::use_feedable_sw_block_grained"]}, {"file": "include/stxxl/bits/common/utils.h", "symbols": ["ilog2_ceil", "round_up_to_power_of_two"]}]}
{"id": "C85", "title": "Matrix iterators denote positions and give their blocks back", "statement": "A program that creates, copies, assigns (within one matrix), moves (set_row, set_col, set_pos, row-major and column-major ++ and --), compares and dereferences matrix iterators, for reading and writing, prints what it prints when an iterator is just a matrix and a position; statements over other matrices and in-place statements over the same matrix may come in between.  Every block that an iterator acquires is released exactly once: never a block that is not acquired, and all of them once no iterator is left.  From begin() every element is visited once in row-major or column-major order, after which the iterator equals end(); from the last element backwards in reverse order.  For an empty matrix begin() equals end().", "quantifier": "every program, number of matrices and iterators, size, block side from 1 on, element values of a commutative ring", "why_tests_cant": "Whether the cached pointer to the acquired block is still right depends on the whole history of moves across block borders and on which block other iterators hold; a missing release shows only when the memory of the block scheduler is exhausted.", "anchors": [{"file": "include/stxxl/bits/containers/matrix.h", "symbols": ["matrix_iterator", "matrix_row_major_iterator", "matrix_col_major_iterator", "matrix_iterator::set_pos", "matrix_iterator::release_current_iblock", "matrix::begin", "matrix::end"]}]}
{"id": "C86", "title": "Matrix iterators stay right across assignment and copies of matrices", "statement": "After it1 = it2 the iterator it1 denotes the position of it2, also if the two belonged to different matrices; copying a matrix while an iterator over it exists, and changing one of the two copies afterwards, leaves the copies independent: writing through the iterator changes the matrix it belongs to and no other, reading through it yields the element of that matrix, and its destructor releases the block it has acquired.", "quantifier": "every program, number of matrices and iterators, size, block side", "why_tests_cant": "The failure needs an iterator that holds a block while the data of its matrix becomes shared or is replaced; tests dereference temporaries, whose life ends before.", "anchors": [{"file": "include/stxxl/bits/containers/matrix.h", "symbols": ["matrix_iterator::operator =", "matrix_iterator::release_current_iblock", "matrix::operator ()"]}, {"file": "include/stxxl/bits/common/counting_ptr.h", "symbols": ["counting_ptr::unify"]}]}
{"id": "C87", "title": "The block cache of the hash map is transparent", "statement": "A client of hash_map::block_cache that follows its rules (uses a pointer to a subblock only while its block cannot have been evicted, writes only after make_dirty, writes directly to disk only while nothing is cached, does not use flushed blocks before clear) always sees, through get_subblock, the last content written to each block, by itself through the cache or on disk; no call is undefined; get_subblock and prefetch_block throw only if as many different blocks as the cache holds are retained; retain_block, release_block and make_dirty report truthfully; flush and the destructor leave exactly the current contents on disk.", "quantifier": "all cache and write buffer sizes from 1 on, block sizes, initial contents of memory and disk, traversal orders of the unordered map, programs of the client, and moments at which the device serves the pending requests", "why_tests_cant": "The results depend on when asynchronous requests are served relative to each other and to the client, on exchange of buffers between cache and write buffer, and on the eviction history; a wrong interleaving is rare and shows as stale data.", "anchors": [{"file": "include/stxxl/bits/containers/hash_map/block_cache.h", "symbols": ["block_cache", "block_cache_write_buffer", "block_cache::get_subblock", "block_cache::prefetch_block", "block_cache::kick_block", "block_cache::make_dirty", "block_cache::retain_block", "block_cache::release_block", "block_cache::flush", "block_cache::clear"]}, {"file": "include/stxxl/bits/containers/pager.h", "symbols": ["lru_pager"]}]}
{"id": "C88", "title": "A flushed block cache can still be used", "statement": "flush() writes all dirty blocks to disk and leaves the cache usable: blocks that were in the cache are still there with their content, pointers obtained before stay good, and further calls of get_subblock return the current content.", "quantifier": "all programs of a client as in C87 that goes on after flush, all sizes, on a device that serves requests for one block in order", "why_tests_cant": "The hash map calls flush only immediately before clear, so no existing test touches a block after flush.", "anchors": [{"file": "include/stxxl/bits/containers/hash_map/block_cache.h", "symbols": ["block_cache::flush", "block_cache_write_buffer::write"]}, {"file": "include/stxxl/bits/containers/hash_map/hash_map.h", "symbols": ["hash_map::clear"]}]}
{"id": "C89", "title": "The statistics of the block cache count accesses and follow the cache in swap", "statement": "The number of reads reported by the cache is the number of calls of get_subblock; each is counted either as found or as not found; wrong subblocks are among those not found.  swap exchanges two caches completely, including their counters.", "quantifier": "all programs, including ones that break the rules of C87 but stay defined, all devices, all cache states", "why_tests_cant": "No test compares the counters of two caches before and after swap, or adds up the counters over all access patterns.", "anchors": [{"file": "include/stxxl/bits/containers/hash_map/block_cache.h", "symbols": ["block_cache::get_subblock", "block_cache::swap", "block_cache::print_statistics"]}]}
{"id": "C90", "title": "The block cache throws out the least recently used block", "statement": "With the pager lru_pager the cache finds exactly those blocks that a cache of the same size finds that always throws out the least recently used block that is not retained.", "quantifier": "all access sequences, all cache sizes", "why_tests_cant": "The content of the blocks is right under every replacement order; only the number of accesses to disk differs.", "anchors": [{"file": "include/stxxl/bits/containers/hash_map/block_cache.h", "symbols": ["block_cache::get_subblock", "block_cache::kick_block"]}, {"file": "include/stxxl/bits/containers/pager.h", "symbols": ["lru_pager::hit", "lru_pager::kick"]}]}
{"id": "C91", "title": "Iterators of the hash map denote keys while the map changes", "statement": "An iterator of the external hash map denotes the value with a key. It stays valid while other values are inserted or erased, while the buffer is moved to disk, while the number of buckets or the load factor changes, and after bulk insertion; reading and assigning through it reads and assigns the current value of the key. When the value is erased or the map cleared the iterator becomes end(). Copies are independent, == compares the denoted keys, ++ goes to the next key in the order of the map, and no operation on iterators fails.", "quantifier": "all programs with two maps and any number of iterators, all key types with a strict weak order and a hash function, all block and buffer sizes", "why_tests_cant": "Whether an iterator is repaired depends on where its value is (buffer or disk), on the bucket, on whether its reader was opened, and on the operations in between; tests hold few iterators over few operations.", "anchors": [{"file": "include/stxxl/bits/containers/hash_map/iterator_map.h", "symbols": ["iterator_map::register_iterator", "iterator_map::unregister_iterator", "iterator_map::fix_iterators_2ext", "iterator_map::fix_iterators_2int", "iterator_map::fix_iterators_2end", "iterator_map::fix_iterators_all2end"]}, {"file": "include/stxxl/bits/containers/hash_map/iterator.h", "symbols": ["hash_map_iterator_base", "hash_map_iterator_base::find_next", "hash_map_iterator_base::operator ==", "hash_map_iterator_base::init_reader"]}, {"file": "include/stxxl/bits/containers/hash_map/hash_map.h", "symbols": ["hash_map::operator []", "hash_map::insert", "hash_map::find", "hash_map::erase", "hash_map::_begin"]}]}
{"id": "C92", "title": "swap of hash maps keeps iterators valid", "statement": "swap exchanges the contents of two external hash maps; iterators keep denoting their values, which now belong to the other map, and can be used and destroyed.", "quantifier": "all maps and iterators", "why_tests_cant": "No test keeps an iterator over a swap.", "anchors": [{"file": "include/stxxl/bits/containers/hash_map/hash_map.h", "symbols": ["hash_map::swap"]}, {"file": "include/stxxl/bits/containers/hash_map/iterator_map.h", "symbols": ["iterator_map::swap", "iterator_map::change_hash_map_pointers"]}]}
{"id": "C93", "title": "Readers over the block cache read and write the blocks of the map", "statement": "A buffered_reader that is constructed over a sequence of block identifiers, advanced with ++, next_subblock and skip_to, reads through const_value the current value at its position and its assignments through value() are not lost, whether or not prefetching is enabled, and whatever other readers and other users of the block cache do, as long as there are fewer readers than blocks in the cache. A reader that reads until ++ returns false reads exactly the values of all its blocks in order.", "quantifier": "all programs with any number of readers and other users of the cache, all sizes of blocks, subblocks, pages, caches and write buffers, all schedules of a device that keeps requests for one block in order", "why_tests_cant": "Whether a block is evicted while a reader stands in it depends on the size of the cache, the pager and all other users of the cache; tests scan with one iterator in a cache that is large enough.", "anchors": [{"file": "include/stxxl/bits/containers/hash_map/util.h", "symbols": ["buffered_reader", "buffered_reader::enable_prefetching", "buffered_reader::operator ++", "buffered_reader::skip_to", "buffered_reader::value", "buffered_reader::next_subblock"]}, {"file": "include/stxxl/bits/containers/hash_map/block_cache.h", "symbols": ["block_cache::retain_block", "block_cache::release_block", "block_cache::make_dirty"]}]}
{"id": "C94", "title": "Buffered readers of a range of a vector deliver the range, forwards and backwards", "statement": "A vector_bufreader over [begin, end) of a vector delivers the elements of the range in order, a vector_bufreader_reverse delivers them in reverse order, whatever the mixture of >>, *, ++, size, empty and rewind, wherever begin and end lie in their blocks and however many buffers are given; size() is the number of elements left and empty() says whether there are any; rewind() starts again at any time, also after the end; a range-based for over a fresh or rewound vector_bufreader visits each element once. No request is pending when the reader is destroyed, the blocks are unchanged, and the reader never waits forever. buf_istream_reverse over any blocks delivers their elements backwards.", "quantifier": "all vectors, block sizes, ranges, numbers of disks and buffers, all sequences of operations, all tie-breaking in the prefetch schedule, all orders and times of completion of the reads", "why_tests_cant": "The test reads whole vectors with one block size and the default number of buffers; ranges that begin or end inside or at the border of a block, rewinding with reads in flight and the orders of completion are not enumerated.", "anchors": [{"file": "include/stxxl/bits/containers/vector.h", "symbols": ["vector_bufreader", "vector_bufreader::rewind", "vector_bufreader::operator ++", "vector_bufreader_iterator", "vector_bufreader_reverse", "vector_bufreader_reverse::rewind"]}, {"file": "include/stxxl/bits/mng/buf_istream_reverse.h", "symbols": ["buf_istream_reverse", "buf_istream_reverse::operator ++", "buf_istream_reverse::operator >>"]}]}
{"id": "C95", "title": "The I/O statistics count every operation and byte once", "statement": "The difference of two snapshots of the statistics (stats_data) gives, for reads and for writes, the number of operations and bytes that were started and not canceled in between, and the number of operations and bytes served from a cache, modulo the widths of the counters; the calls of all threads are counted however they interleave. A scoped timer calls started and finished alternately, beginning with started, whatever start and stop calls it gets, and the last call is finished.", "quantifier": "all numbers of threads, all sequences of calls, all interleavings of their sections, all sequences of start and stop of a timer", "why_tests_cant": "The counters are updated from several threads in separate sections; tests print them but compare them in no interleaving.", "anchors": [{"file": "lib/io/iostats.cpp", "symbols": ["stats::read_started", "stats::read_canceled", "stats::read_finished", "stats::read_cached", "stats::write_started", "stats::write_canceled", "stats::write_finished", "stats::write_cached"]}, {"file": "include/stxxl/bits/io/iostats.h", "symbols": ["stats_data::operator -", "stats::scoped_read_write_timer", "stats::scoped_wait_timer"]}]}
{"id": "C96", "title": "Serial read and write times are the sums of the durations", "statement": "When all operations are over, get_read_time and get_write_time are the sums, over the operations, of the time from the timestamp taken at the start to the timestamp taken at the end, even if the threads enter the sections in another order than they took the timestamps, and even if an end is entered before its start.", "quantifier": "all numbers of threads, all sequences of calls, all interleavings, all times", "why_tests_cant": "Needs threads that are interrupted between taking the time and entering the section; no test compares the times with anything.", "anchors": [{"file": "lib/io/iostats.cpp", "symbols": ["stats::read_started", "stats::read_finished", "stats::write_started", "stats::write_finished"]}, {"file": "lib/io/linuxaio_request.cpp", "symbols": ["linuxaio_request::post", "linuxaio_request::completed"]}]}
{"id": "C97", "title": "Parallel I/O times are the periods in which an operation runs", "statement": "When all operations are over, get_pread_time (get_pwrite_time, get_pio_time) is the length of the period in which at least one read (write, read or write) was running.", "quantifier": "all numbers of threads, all sequences of calls, all interleavings, all times", "why_tests_cant": "The errors need a thread that is interrupted between two statements of a few instructions.", "anchors": [{"file": "lib/io/iostats.cpp", "symbols": ["stats::read_started", "stats::read_finished", "stats::write_started", "stats::write_finished"]}, {"file": "lib/io/linuxaio_request.cpp", "symbols": ["linuxaio_request::post", "linuxaio_request::completed"]}]}
{"id": "C98", "title": "Wait times add up, and reset starts the statistics anew", "statement": "When nobody waits, get_wait_read_time and get_wait_write_time are the sums of the durations of the waits of the two sorts and get_io_wait_time is their sum. After reset() all values describe what happened since the reset.", "quantifier": "all numbers of threads, all sequences of calls, all interleavings, all times", "why_tests_cant": "reset is called by tests at quiet moments only, and no test checks the sums.", "anchors": [{"file": "lib/io/iostats.cpp", "symbols": ["stats::wait_started", "stats::wait_finished", "stats::reset"]}]}
{"id": "C99", "title": "The Linux AIO queue hands every request to the kernel once, in order and within its limit", "statement": "A request added to the queue is submitted to the kernel at most once and becomes ready at most once; a cancelled request is never submitted; the others are submitted in the order of add_request; a request becomes ready only after the kernel finished it; at most max_events requests are submitted and not ready.", "quantifier": "all queue lengths, all sequences of calls, all interleavings of callers, the two threads, the kernel and the destructor, all answers of the kernel (EAGAIN, order and batches of events)", "why_tests_cant": "The order of the threads and of the kernel's events cannot be chosen by a test, and EAGAIN is rare.", "anchors": [{"file": "lib/io/linuxaio_queue.cpp", "symbols": ["linuxaio_queue::add_request", "linuxaio_queue::cancel_request", "linuxaio_queue::post_requests", "linuxaio_queue::handle_events", "linuxaio_queue::wait_requests"]}, {"file": "lib/io/linuxaio_request.cpp", "symbols": ["linuxaio_request::post", "linuxaio_request::completed"]}]}
{"id": "C100", "title": "Every request added to the Linux AIO queue becomes ready", "statement": "When the threads and the kernel have nothing more to do, every added request is ready and no call is blocked, they stop after finitely many steps, and the destructor returns after all requests are ready.", "quantifier": "all queue lengths, all sequences of calls, all interleavings, all answers of the kernel", "why_tests_cant": "A deadlock needs one particular interleaving of a cancel, a shutdown or an EAGAIN with the two threads.", "anchors": [{"file": "lib/io/linuxaio_queue.cpp", "symbols": ["linuxaio_queue::cancel_request", "linuxaio_queue::post_requests", "linuxaio_queue::wait_requests", "linuxaio_queue::~linuxaio_queue"]}, {"file": "lib/io/request_queue_impl_worker.cpp", "symbols": ["request_queue_impl_worker::stop_thread"]}]}
{"id": "C101", "title": "The Linux AIO queue negotiates its length with the kernel", "statement": "If the kernel grants some number of events between 1 and the desired length, the constructor succeeds with such a number.", "quantifier": "all desired lengths and all limits of the kernel", "why_tests_cant": "The limit of the kernel (aio-max-nr) is hardly ever reached on a test machine.", "anchors": [{"file": "lib/io/linuxaio_queue.cpp", "symbols": ["linuxaio_queue::linuxaio_queue"]}]}
{"id": "C102", "title": "Failed and short transfers of Linux AIO are reported", "statement": "If the kernel finishes a transfer with an error or with fewer bytes than requested, wait() of the request throws.", "quantifier": "all executions of the queue", "why_tests_cant": "Disks of test machines do not fail.", "anchors": [{"file": "lib/io/linuxaio_queue.cpp", "symbols": ["linuxaio_queue::handle_events"]}, {"file": "lib/io/linuxaio_request.cpp", "symbols": ["linuxaio_request::completed"]}]}
{"id": "C103", "title": "The Linux AIO queue releases the references it made for the kernel", "statement": "When all requests are ready and nothing moves, none of the references that were allocated for the kernel is left, so the requests can be freed.", "quantifier": "all executions of the queue, all answers of the kernel", "why_tests_cant": "A leaked request is not visible in a test, and the leak needs an EAGAIN.", "anchors": [{"file": "lib/io/linuxaio_queue.cpp", "symbols": ["linuxaio_queue::handle_events", "linuxaio_queue::post_requests"]}, {"file": "lib/io/linuxaio_request.cpp", "symbols": ["linuxaio_request::fill_control_block", "linuxaio_request::post"]}]}
{"id": "C104", "title": "Sizes with units are parsed exactly", "statement": "parse_SI_IEC_size accepts exactly the strings that are a decimal number followed by an optional unit (B, or k/M/G/T/P with optional i and optional B, or the default unit), and returns number times factor of the unit.", "quantifier": "all strings, all default units", "why_tests_cant": "The set of strings is infinite; errors are in strings without a number, with a sign, or whose value exceeds 64 bits.", "anchors": [{"file": "lib/common/utils.cpp", "symbols": ["parse_SI_IEC_size"]}]}
{"id": "C105", "title": "The options of a disk can be written and read back", "statement": "Constructing a disk_config from path, size and fileio_string() of a disk gives the same disk; options that are not documented are rejected with an exception.", "quantifier": "all disks and all option strings", "why_tests_cant": "Twelve fields with interactions between the I/O implementation and the options.", "anchors": [{"file": "lib/mng/config.cpp", "symbols": ["disk_config::parse_fileio", "disk_config::fileio_string", "disk_config::disk_config"]}]}
{"id": "C106", "title": "Configuration files give their disks, regular ones first", "statement": "After the configuration is initialized, the disks are those of the lines of the file with the given path, size and options; regular_disk_range() holds exactly the regular ones and flash_range() exactly the flash ones; a bad line throws std::runtime_error and is not used.", "quantifier": "all configuration files, all ways of filling the configuration (files, add_disk)", "why_tests_cant": "Depends on the order of calls and on memory that is never initialized.", "anchors": [{"file": "lib/mng/config.cpp", "symbols": ["config::load_config_file", "config::initialize", "disk_config::parse_line"]}, {"file": "include/stxxl/bits/mng/config.h", "symbols": ["config::add_disk", "config::regular_disk_range", "config::flash_range"]}]}
{"id": "C107", "title": "Disks get distinct automatic device ids and their queues", "statement": "A disk without a device id gets one that no other disk has; explicit ids are kept; a disk without a queue gets a queue of its own, linuxaio disks share the linuxaio queue.", "quantifier": "all lists of disks", "why_tests_cant": "Depends on the mixture and order of explicit and automatic ids.", "anchors": [{"file": "lib/mng/config.cpp", "symbols": ["config::get_next_device_id", "config::update_max_device_id"]}, {"file": "lib/io/create_file.cpp", "symbols": ["create_file"]}, {"file": "lib/mng/block_manager.cpp", "symbols": ["block_manager::block_manager"]}]}
{"id": "C108", "title": "split cuts a string at its separators", "statement": "Joining the fields returned by split (without the padding) with the separator gives the string; there are at least min_fields and at most limit_fields fields; only the last field may contain the separator, and only when the limit is reached.", "quantifier": "all strings, separators, minima and limits", "why_tests_cant": "All strings.", "anchors": [{"file": "include/stxxl/bits/common/utils.h", "symbols": ["split"]}]}
{"id": "C109", "title": "syscall_file transfers exactly the requested bytes", "statement": "A read through syscall_file that returns fills the buffer with the bytes of the file at the offset, and zeros behind the end of the file; a write that returns changed exactly the requested range; a write that throws has changed at most a prefix of it; both end, and succeed if the kernel reports no error.", "quantifier": "all contents, offsets, lengths and all ways the kernel splits the transfers", "why_tests_cant": "Short reads and writes are chosen by the kernel and do not occur on local disks in tests.", "anchors": [{"file": "lib/io/syscall_file.cpp", "symbols": ["syscall_file::serve"]}]}
{"id": "C110", "title": "All file implementations store the same bytes", "statement": "The same program of writes, reads and set_size calls gives the same results on syscall_file, mmap_file and mem_file.", "quantifier": "all programs, page sizes and splittings of system calls", "why_tests_cant": "Tests run each implementation only with block-wise accesses inside a file whose size was set.", "anchors": [{"file": "lib/io/syscall_file.cpp", "symbols": ["syscall_file::serve"]}, {"file": "lib/io/mmap_file.cpp", "symbols": ["mmap_file::serve"]}, {"file": "lib/io/mem_file.cpp", "symbols": ["mem_file::serve", "mem_file::set_size", "mem_file::discard"]}, {"file": "lib/io/ufs_file_base.cpp", "symbols": ["ufs_file_base::set_size", "ufs_file_base::size"]}]}
{"id": "C111", "title": "fileperblock_file behaves as one file", "statement": "A fileperblock_file returns for every offset the bytes last written there, or zeros, and keeps its size; blocks at different offsets are in different files, none of which is the lock file.", "quantifier": "all sequences of writes, reads and discards, all offsets below 10^20", "why_tests_cant": "Depends on the lengths used at one offset and on overlapping ranges.", "anchors": [{"file": "lib/io/fileperblock_file.cpp", "symbols": ["fileperblock_file::serve", "fileperblock_file::filename_for_block", "fileperblock_file::discard", "fileperblock_file::fileperblock_file"]}, {"file": "include/stxxl/bits/io/fileperblock_file.h", "symbols": ["fileperblock_file::set_size", "fileperblock_file::size"]}]}
{"id": "C112", "title": "File objects own exactly one descriptor", "statement": "A constructed ufs file holds one descriptor, opened with O_DIRECT if this is required; if construction fails no descriptor stays open; close releases the descriptor exactly once.", "quantifier": "all open modes and all answers of open, fstat, lock and close", "why_tests_cant": "Failing system calls are not provoked by tests.", "anchors": [{"file": "lib/io/ufs_file_base.cpp", "symbols": ["ufs_file_base::ufs_file_base", "ufs_file_base::_after_open", "ufs_file_base::close", "ufs_file_base::lock"]}]}
{"id": "C113", "title": "The command line parser accepts exactly the declared command lines", "statement": "process() returns true exactly for command lines that consist of declared options with valid arguments and of the declared parameters, and then every variable has the value given last; a rejected command line leaves the variables alone.", "quantifier": "all declared options and parameters, all command lines", "why_tests_cant": "The combinations of option forms, texts and orders are unbounded.", "anchors": [{"file": "lib/common/cmdline.cpp", "symbols": ["cmdline_parser::process"]}, {"file": "include/stxxl/bits/common/cmdline.h", "symbols": ["argument_int::process", "argument_uint::process", "argument_bytes32::process", "argument_bytes64::process", "argument_string::process", "argument_flag::process"]}]}
{"id": "C114", "title": "Parameters are filled in order and required ones are enforced", "statement": "The texts that are no options go to the parameters in the order of their declaration, a list takes several; process() returns true only if all required parameters were given in this command line, and there is such a command line for every declaration.", "quantifier": "all declarations of parameters and all command lines", "why_tests_cant": "Depends on the declaration and on earlier calls.", "anchors": [{"file": "lib/common/cmdline.cpp", "symbols": ["cmdline_parser::process"]}, {"file": "include/stxxl/bits/common/cmdline.h", "symbols": ["argument_stringlist", "add_param_string", "add_param_stringlist"]}]}
{"id": "C115", "title": "Usage texts are wrapped completely", "statement": "output_wrap prints the text completely in lines of at most the given width, broken at newlines and between words, and ends; print_usage ends for all declared options.", "quantifier": "all texts, widths, indentations and options", "why_tests_cant": "All texts; the failure needs long option names.", "anchors": [{"file": "lib/common/cmdline.cpp", "symbols": ["cmdline_parser::output_wrap", "cmdline_parser::print_usage"]}, {"file": "include/stxxl/bits/common/cmdline.h", "symbols": ["calc_opt_max", "option_text"]}]}
{"id": "C116", "title": "Multiway merging outputs the smallest elements in order and moves the iterators", "statement": "Merging length elements of sorted sequences (algorithms BUBBLE and LOSER_TREE, any number of sequences, length up to the number of elements) outputs length elements, sorted, which are removed from the fronts of the sequences, none greater than one left; in stable mode (and always for up to four sequences) equivalent elements come in the order of the sequences. Nothing outside the sequences is read. A longer length gives all elements.", "quantifier": "all element types, strict weak orders, sequences and lengths", "why_tests_cant": "All numbers of sequences, lengths and patterns of ties; tests never have only empty sequences.", "anchors": [{"file": "include/stxxl/bits/parallel/multiway_merge.h", "symbols": ["sequential_multiway_merge", "multiway_merge_3_variant", "multiway_merge_4_variant", "multiway_merge_bubble", "multiway_merge_loser_tree"]}, {"file": "include/stxxl/bits/parallel/merge.h", "symbols": ["merge_advance", "merge_advance_movc"]}, {"file": "include/stxxl/bits/parallel/losertree.h", "symbols": ["LoserTreePointer", "LoserTreeCopy"]}]}
{"id": "C117", "title": "Merging without end tests up to the end of the first exhausted sequence stays inside the sequences", "statement": "The combined variants (LOSER_TREE_COMBINED, or LOSER_TREE_SENTINEL without sentinels) give the result of C116 and read nothing outside the sequences, for every number of sequences, stable or not.", "quantifier": "all element types, strict weak orders, sequences and lengths", "why_tests_cant": "The read past the end and the tie with the padding player need particular ties and lengths.", "anchors": [{"file": "include/stxxl/bits/parallel/multiway_merge.h", "symbols": ["prepare_unguarded", "multiway_merge_3_combined", "multiway_merge_4_combined", "multiway_merge_loser_tree_combined", "multiway_merge_loser_tree_unguarded"]}, {"file": "include/stxxl/bits/parallel/losertree.h", "symbols": ["LoserTreePointerUnguarded", "LoserTreeCopyUnguarded"]}]}
{"id": "C118", "title": "Merging with sentinels needs no end tests", "statement": "If behind each sequence lies an element greater than all elements, LOSER_TREE_SENTINEL gives the result of C116, stable or not, and leaves the ends where they were.", "quantifier": "all element types, strict weak orders, sequences and lengths", "why_tests_cant": "All sequences and lengths; the wrong comparison is used only for integers, stable, five or more sequences.", "anchors": [{"file": "include/stxxl/bits/parallel/multiway_merge.h", "symbols": ["multiway_merge_loser_tree_sentinel", "unguarded_iterator", "multiway_merge_loser_tree_unguarded"]}, {"file": "include/stxxl/bits/parallel/losertree.h", "symbols": ["LoserTreePointerUnguarded", "LoserTreeCopyUnguarded"]}]}
{"id": "C119", "title": "Parallel merging with exact splitting gives what sequential merging gives", "statement": "parallel_multiway_merge with exact splitting, for any number of threads and any length up to the number of elements, puts the length smallest elements in order into the target whatever the interleaving of the writes of the threads, writes nothing else, moves the iterators behind them and returns the position behind the output; no thread leaves its part of the sequences.", "quantifier": "all element types, strict weak orders, sequences, lengths, numbers of threads, interleavings", "why_tests_cant": "Schedules; crossing splits need equal elements and certain lengths; the tests use two or three sequences of random numbers.", "anchors": [{"file": "include/stxxl/bits/parallel/multiway_merge.h", "symbols": ["parallel_multiway_merge", "parallel_multiway_merge_exact_splitting"]}, {"file": "include/stxxl/bits/parallel/equally_split.h", "symbols": ["equally_split"]}, {"file": "include/stxxl/bits/parallel/multiseq_selection.h", "symbols": ["multiseq_partition"]}]}
{"id": "C120", "title": "Stable parallel merging keeps equivalent elements in order", "statement": "parallel_multiway_merge<true> with exact splitting gives the result of C119 with equivalent elements in the order of their sequences.", "quantifier": "all element types, strict weak orders, sequences, lengths, numbers of threads, interleavings", "why_tests_cant": "Only equal elements that straddle a split are out of order, and only for certain lengths.", "anchors": [{"file": "include/stxxl/bits/parallel/multiway_merge.h", "symbols": ["parallel_multiway_merge", "parallel_multiway_merge_exact_splitting", "multiway_merge_stable"]}]}
{"id": "C121", "title": "Parallel merging with sampling gives what sequential merging gives", "statement": "parallel_multiway_merge with sampling splitting gives the result of C119 and C120, for any length, number of threads and number of sequences.", "quantifier": "all element types, strict weak orders, sequences, lengths, numbers of threads, samples, interleavings", "why_tests_cant": "Schedules and samples; sampling is not the default and the tests merge all elements of two or three sequences.", "anchors": [{"file": "include/stxxl/bits/parallel/multiway_merge.h", "symbols": ["parallel_multiway_merge", "parallel_multiway_merge_sampling_splitting"]}]}
{"id": "C122", "title": "Parallel multiway mergesort with exact splitting sorts the array", "statement": "parallel_sort_mwms with exact splitting, for any number of threads, leaves a sorted permutation of the input in the array whatever the interleaving of the final writes of the threads, with equivalent elements in their original order if Stable; no thread leaves the arrays.", "quantifier": "all element types, strict weak orders, arrays, numbers of threads, local sorting algorithms, interleavings", "why_tests_cant": "Schedules; the test checks random keys for order only, never the elements or the stability, and the failures need many equal elements at certain splits.", "anchors": [{"file": "include/stxxl/bits/parallel/multiway_mergesort.h", "symbols": ["parallel_sort_mwms", "parallel_sort_mwms_pu"]}, {"file": "include/stxxl/bits/parallel/multiseq_selection.h", "symbols": ["multiseq_partition"]}]}
{"id": "C123", "title": "Parallel multiway mergesort with sampling sorts the array", "statement": "parallel_sort_mwms with sort_splitting = SAMPLING gives the result of C122 for any array and number of threads; samples are read inside the array.", "quantifier": "all element types, strict weak orders, arrays, numbers of threads, local sorting algorithms, interleavings", "why_tests_cant": "Sampling is not the default, so no test runs it; short arrays read past the end without a visible effect.", "anchors": [{"file": "include/stxxl/bits/parallel/multiway_mergesort.h", "symbols": ["parallel_sort_mwms", "parallel_sort_mwms_pu", "determine_samples"]}]}
{"id": "C124", "title": "The parallel priority queue behaves like a bag with smallest-element removal", "statement": "Any sequence of push, top, pop, bulk_pop and bulk_pop_limit on a new parallel_priority_queue, with pushes going to any insertion heaps, gives the answers of a bag: top returns an element such that none in the bag goes before it, pop removes such an element, bulk_pop(out, n) removes in order up to n elements none of which comes after one left, bulk_pop_limit additionally only elements before the limit, and returns true only if none before the limit is left. This holds whatever flushes, merges and refills memory and prefetching cause in between.", "quantifier": "all element types, strict weak orders, numbers of threads, capacities and block sizes, sequences of calls, outcomes of every comparison with the memory left, numbers of prefetched blocks found at every wait", "why_tests_cant": "Flushes, level merges and refills depend on memory sizes and prefetching; the tests run a few fixed volumes, never bulk_pop with 0, and never run out of memory in the middle of a merge level.", "anchors": [{"file": "include/stxxl/bits/containers/parallel_priority_queue.h", "symbols": ["push", "top", "pop", "bulk_pop", "bulk_pop_limit", "refill_extract_buffer", "calculate_merge_sequences", "flush_insertion_heap", "flush_insertion_heaps", "flush_internal_arrays", "convert_eb_into_ia", "check_external_level", "add_as_internal_array"]}]}
{"id": "C125", "title": "The parallel priority queue makes progress", "statement": "As long as prefetched blocks arrive, every call completes: top and pop on a queue that is not empty find an element, bulk_pop(out, n) gets min(n, size()) elements, bulk_pop_limit stops before the limit only at max_size; no internal assertion fails when a merge of external arrays was postponed for lack of memory, or after a pop emptied an internal array.", "quantifier": "all element types, strict weak orders, numbers of threads, capacities, reachable states, outcomes of every comparison with the memory left", "why_tests_cant": "The failing level assertion needs 65 external arrays on one level, the merge of which was first skipped and then allowed; the other needs pops that empty an internal array before bulk_pop_limit, while the tests never call bulk_pop_limit after pop.", "anchors": [{"file": "include/stxxl/bits/containers/parallel_priority_queue.h", "symbols": ["top", "pop", "bulk_pop", "bulk_pop_limit", "refill_extract_buffer", "check_external_level"]}]}
{"id": "C126", "title": "Bulk-limit sessions of the parallel priority queue", "statement": "Between limit_begin(L) and limit_end, limit_top returns the smallest element while one goes before L and L afterwards, limit_pop removes the element limit_top shows, limit_push adds an element not before L, in any order of these calls; no element is lost or duplicated, and the queue behaves as before after limit_end. This holds whatever flushes of heaps, internal arrays and the extract buffer the pushes cause.", "quantifier": "all element types, strict weak orders, limits, numbers of threads, capacities, reachable queues, sequences of session calls, outcomes of every comparison with the memory left, numbers of prefetched blocks found at every wait", "why_tests_cant": "The session branch of the tests is switched off; a benchmark pops right after top. The buffer is flushed only if memory runs out during a session, between limit_top and limit_pop.", "anchors": [{"file": "include/stxxl/bits/containers/parallel_priority_queue.h", "symbols": ["limit_begin", "limit_push", "limit_top", "limit_pop", "limit_end", "bulk_pop_limit", "convert_eb_into_ia", "flush_internal_arrays"]}]}
{"id": "C127", "title": "push_heap of the parallel priority queue", "statement": "push_heap on an array whose elements but the last form a heap gives a heap of the same elements, returns the index at which the new element ends, and moves nothing before that index, so the root changes only if 0 is returned. Sifting up the last n elements of an array one after the other, as bulk_push_end does, meets the precondition of std::push_heap each time and gives a heap, provided the elements before them form one. The root of a heap is a least element.", "quantifier": "all element types, strict weak orders, heaps of any size, new elements, numbers of elements not yet sifted up", "why_tests_cant": "A wrong parent index, a sift stopping one level early or a wrong returned index shows only for some shapes and orders of heaps; an array that is nearly a heap still pops many elements in the right order.", "anchors": [{"file": "include/stxxl/bits/containers/parallel_priority_queue.h", "symbols": ["push_heap", "bulk_push_end"]}]}
{"id": "C128", "title": "Pushes and bulk pushes keep heaps, counter and winner tree consistent", "statement": "After any sequence of push calls and bulks (bulk_push_begin, any bulk_push calls, bulk_push_end), made one after another on existing insertion heaps, no assertion has failed, no precondition of std::push_heap has been violated, no flush has found an empty heap in the winner tree (whose comparisons read the roots) and m_heaps_size has never gone below zero; every insertion heap is a heap within its capacity whose present root the winner tree has been told, m_heaps_size is the number of elements in the insertion heaps, every array flushed from a heap is sorted and not empty, and heaps and flushed arrays hold exactly the elements pushed.", "quantifier": "all element types, strict weak orders, capacities of at least one, numbers of insertion heaps, sequences of pushes and bulks, distributions of the elements over the heaps", "why_tests_cant": "The counter lags behind during a bulk and is corrected in two places, one of them only reached when a heap fills up within the bulk; a root not told to the winner tree gives a wrong minimum only if it is the overall one.", "anchors": [{"file": "include/stxxl/bits/containers/parallel_priority_queue.h", "symbols": ["push", "push_heap", "bulk_push_begin", "bulk_push", "bulk_push_end", "flush_insertion_heap"]}]}
{"id": "C129", "title": "Flushes of insertion heaps by several threads do not interfere", "statement": "When several threads call bulk_push at the same time, each for its own insertion heap, and heaps fill up, no thread reads an element of a heap while another thread is sorting it, and once the flushes are done the winner tree of the heaps names a heap with a least root among those left in it.", "quantifier": "all element types, strict weak orders, numbers of insertion heaps, reachable winner trees, schedules of sorting and entering the critical section", "why_tests_cant": "The read falls into the time another thread spends in std::sort; for integers a stale or torn value mostly changes nothing visible, as the tree is played again when the bulk ends.", "anchors": [{"file": "include/stxxl/bits/containers/parallel_priority_queue.h", "symbols": ["flush_insertion_heap", "bulk_push", "minima_tree::deactivate_heap", "heaps_comp"]}, {"file": "include/stxxl/bits/common/winner_tree.h", "symbols": ["deactivate_player", "replay_on_change"]}]}
