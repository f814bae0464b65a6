{
 "claims": [
  {
   "property": "C01",
   "status": "proved",
   "theorems": [
    "C01_live_blocks_disjoint",
    "C01_new_blocks_fresh"
   ],
   "note": "all interleavings of mutex-protected sections; block sizes positive"
  },
  {
   "property": "C02",
   "status": "proved",
   "theorems": [
    "C02_initial_disk",
    "C02_space_accounting_exact"
   ],
   "note": ""
  },
  {
   "property": "C03",
   "status": "proved",
   "theorems": [
    "C03_double_free_detected"
   ],
   "note": "non-empty regions"
  },
  {
   "property": "C04",
   "status": "proved",
   "theorems": [
    "C04_free_list_coalesced"
   ],
   "note": ""
  },
  {
   "property": "C05",
   "status": "partial",
   "theorems": [
    "C05_fixed_size_refuted",
    "C05_fixed_size_growth_partial",
    "C05_uniform_blocks_never_grow_partial"
   ],
   "note": "REFUTED as stated: a one-block request on a fragmented fixed-size disk enlarges the file. Proved: exact characterisation of that growth, and no growth with one block size dividing the configured size."
  },
  {
   "property": "C06",
   "status": "partial",
   "theorems": [
    "C06_allocation_all_or_nothing",
    "C06_concurrent_failure_leaks_refuted"
   ],
   "note": "Proved for a call without interference by other threads; REFUTED with interference, because the mutex is released between the halves of a split request."
  },
  {
   "property": "C07",
   "status": "partial",
   "theorems": [
    "C07_failed_call_leaks_refuted",
    "C07_failed_call_effect_partial"
   ],
   "note": "REFUTED as stated: blocks already taken on earlier disks stay allocated. Proved: exact effect of a failing call; no leak when one disk is used."
  },
  {
   "property": "C08",
   "status": "proved",
   "theorems": [
    "C08_held_blocks_distinct",
    "C08_one_block_per_position",
    "C08_counters_exact"
   ],
   "note": "calls not interleaved; counters unbounded"
  },
  {
   "property": "C09",
   "status": "proved",
   "theorems": [
    "C09_strategies_balance_disks",
    "C09_random_and_single_in_range",
    "C09_offset_allocator_keeps_balance"
   ],
   "note": "striping, SR, RC (with its shuffle) balanced over any window; FR/single_disk in range; offset_allocator for non-negative offsets"
  },
  {
   "property": "C10",
   "status": "proved",
   "theorems": [
    "C10_interleaved_runs_balanced",
    "C10_interleaved_in_range"
   ],
   "note": "each run of the interleaved strategies is balanced by itself"
  },
  {
   "property": "C11",
   "status": "proved",
   "theorems": [
    "C11_read_latest_write"
   ],
   "note": "All interleavings of client operations and request start/finish; clients wait for a read before the next operation on that block (see C54 for what happens otherwise)."
  },
  {
   "property": "C12",
   "status": "proved",
   "theorems": [
    "C12_no_aliasing",
    "C12_conserved",
    "C12_resize_write",
    "C12_resize_prefetch",
    "C12_failures"
   ],
   "note": "Same model; also: the only failures are steals from an empty pool."
  },
  {
   "property": "C13",
   "status": "proved",
   "theorems": [
    "C13_normal_stack",
    "C13_normal_stack_progress"
   ],
   "note": "Any page and block size, any legal history, any schedule (asynchronous machine of AsyncIoModel); progress: with a supply of blocks some schedule completes."
  },
  {
   "property": "C14",
   "status": "proved",
   "theorems": [
    "C14_grow_shrink_stack",
    "C14_grow_shrink_stack_progress"
   ],
   "note": "As C13, with the overlapped writes and reads of grow_shrink_stack."
  },
  {
   "property": "C15",
   "status": "proved",
   "theorems": [
    "C15_grow_shrink_stack2",
    "C15_grow_shrink_stack2_progress"
   ],
   "note": "The read_write_pool is replaced by its specification, which is C11; hint/invalidate index ranges are checked for out-of-range access."
  },
  {
   "property": "C16",
   "status": "proved",
   "theorems": [
    "C16_migrating_stack_normal",
    "C16_migrating_stack_grow_shrink",
    "C16_migrating_stack_progress"
   ],
   "note": "External stack normal_stack or grow_shrink_stack, any CritSize."
  },
  {
   "property": "C17",
   "status": "proved",
   "theorems": [
    "C17_queue_fifo",
    "C17_queue_progress"
   ],
   "note": "All histories of push (of values), pop, front, back, assignments through front()/back(), size; all block sizes >= 1; all I/O schedules. The read_write_pool is replaced by its specification (C11)."
  },
  {
   "property": "C18",
   "status": "proved",
   "theorems": [
    "C18_sequence_deque",
    "C18_sequence_progress"
   ],
   "note": "All histories of push/pop at both ends (of values), front, back, assignments through them, size and complete stream traversals; all block sizes >= 1; all I/O schedules. Pool replaced by its specification (C11)."
  },
  {
   "property": "C19",
   "status": "proved",
   "theorems": [
    "C19_vector_lru",
    "C19_vector_random",
    "C19_vector_any_pager",
    "C19_vector_progress"
   ],
   "note": "push/pop/get/set/resize/reserve/clear/flush/drop cache/set_content/external block updates; any pager, any I/O schedule. Shrinking is C23, own elements as arguments C58."
  },
  {
   "property": "C20",
   "status": "proved",
   "theorems": [
    "C20_vector_flush_durable",
    "C19_vector_any_pager"
   ],
   "note": "After flush every written element is on disk and no request is pending; VReopen in C19 is the vector rebuilt over the same blocks."
  },
  {
   "property": "C21",
   "status": "proved",
   "theorems": [
    "C21_file_size_round_trip",
    "C21_file_length_covers_elements",
    "C21_opened_size_fits"
   ],
   "note": "64-bit arithmetic; file length must be representable"
  },
  {
   "property": "C22",
   "status": "partial",
   "theorems": [
    "C22_vector_shrink_leaks_refuted",
    "C59_vector_returns_blocks"
   ],
   "note": "REFUTED: delete_blocks gets an empty range, the blocks leak even past the destructor. True part: without shrinking everything is returned (C59)."
  },
  {
   "property": "C23",
   "status": "partial",
   "theorems": [
    "C23_vector_page_tables_refuted",
    "C23_vector_shrink_partial"
   ],
   "note": "REFUTED: shrink, then regrow to fewer pages than before with an old page still cached accesses the page table out of bounds. True part: all histories that never grow to fewer pages than the peak."
  },
  {
   "property": "C24",
   "status": "partial",
   "theorems": [
    "C24_bufwriter_partial",
    "C24_progress",
    "C24_fresh_vector",
    "C24_one_block_pages_refuted",
    "C24_last_block_refuted",
    "C24_single_block_refuted"
   ],
   "note": "REFUTED as stated: when the vector grows while the stream has just completed a block, the vector is not told of that block; its elements are lost if it is told of no other block of that page (three concrete runs). Proved for every history of vector operations and writers, every pager and schedule, under the complementary condition (writer fits in the vector, or pages of >= 2 blocks and not one of the two boundary cases); in particular for every writer on an empty vector with pages of at least two blocks."
  },
  {
   "property": "C25",
   "status": "proved",
   "theorems": [
    "C25_deque_lru",
    "C25_deque_any_pager",
    "C25_deque_progress",
    "C25_deque_returns_blocks",
    "C25_deque_one_page_refuted"
   ],
   "note": "lru_pager with at least two cached pages (or any pager that never evicts the page hit last), any I/O schedule, both evaluation orders of *to = *from. With a single cached page it is false (refuted): the assignment in std::copy uses stale references (C58)."
  },
  {
   "property": "C26",
   "status": "partial",
   "theorems": [
    "C26_deque_equal_refuted",
    "C26_deque_equal_partial",
    "C26_deque_less"
   ],
   "note": "REFUTED: operator== does not compare sizes. True part: deques of the same size; operator< is the lexicographic order."
  },
  {
   "property": "C27",
   "status": "proved",
   "theorems": [
    "C27_exactly_once",
    "C27_wait_returns_when_finished",
    "C27_cancel_answer",
    "C27_no_undefined_behaviour_but_cancel",
    "C27_worker_finishes_everything"
   ],
   "note": "Both queue implementations, any number of user threads, any interleaving. wait_any notification is C30."
  },
  {
   "property": "C28",
   "status": "partial",
   "theorems": [
    "C28_cancel_deadlock_refuted",
    "C28_cancel_null_refuted",
    "C28_cancel_blocks_only_on_last_partial"
   ],
   "note": "REFUTED: cancel can deadlock with the worker (it holds the queue mutex while waiting for the semaphore) and can read m_file after it was cleared. Proved: with one cancelling thread it blocks only when it removed the last pending request after the worker took a token."
  },
  {
   "property": "C29",
   "status": "partial",
   "theorems": [
    "C29_shutdown_loses_request_refuted",
    "C29_shutdown_complete_partial",
    "C29_shutdown_terminates_partial"
   ],
   "note": "REFUTED: the worker can exit between the two actions of stop_thread with requests still queued. Proved when these two actions are not separated."
  },
  {
   "property": "C30",
   "status": "partial",
   "theorems": [
    "C30_spurious_wakeup_refuted",
    "C30_error_dangling_switch_refuted",
    "C30_returns_finished_partial",
    "C30_result_sound_partial",
    "C30_no_lost_wakeup_partial",
    "C30_returns_partial",
    "C30_no_dangling_switch_partial"
   ],
   "note": "REFUTED under spurious wakeups (returns reqs_end) and for requests ending in an error (dangling switch). Proved without these two."
  },
  {
   "property": "C31",
   "status": "proved",
   "theorems": [
    "C31_schedule"
   ],
   "note": "simulate_async_write and compute_prefetch_schedule modelled completely; ties between events of the same time are broken by an arbitrary choice function. The device ids of the blocks are an arbitrary function bounded by D (asserted in get_disk)."
  },
  {
   "property": "C32",
   "status": "proved",
   "theorems": [
    "C32_prefetcher",
    "C32_prefetcher_progress",
    "C32_istream",
    "C32_istream_progress"
   ],
   "note": "Every prefetch order that has each block once and block k among the first k+m, every number of buffers (all blocks, or held+m-1), every user holding several blocks at a time, every schedule of the reads; buf_istream with its own schedule (C31, any tie-breaking). Reads return the disk content in consumption order, nothing pending after destruction, no deadlock. At least one block (the constructor asserts it)."
  },
  {
   "property": "C33",
   "status": "partial",
   "theorems": [
    "C33_writer",
    "C33_writer_progress",
    "C33_flush",
    "C33_ostream",
    "C33_ostream_progress",
    "C33_round_trip",
    "C33_flush_keep_refuted",
    "C33_hang_refuted"
   ],
   "note": "REFUTED as stated for two uses: flush() hands out again a block the user still holds (C33_flush_keep_refuted), and with batches as large as the number of buffers get_free_block waits for nothing forever (C33_hang_refuted, e.g. buffered_writer(2,2)). Proved for all other uses: every history where held blocks and batch leave a buffer, a block address is not handed over twice between flushes and no block is kept over a flush; every order of the batch, poll results and I/O schedule. buf_ostream: all histories, any number of buffers; written then read back through buf_istream (round trip)."
  },
  {
   "property": "C34",
   "status": "proved",
   "theorems": [
    "C34_merge",
    "C34_merge_all"
   ],
   "note": "Every strict weak order, number of runs, run lengths and block sizes, any division of the output into buffers; unrolled and general paths; cursors share one consumption sequence as in the code (a cursor may receive a block of another run)."
  },
  {
   "property": "C35",
   "status": "partial",
   "theorems": [
    "C35_sort",
    "C35_file",
    "C35_sort_first_unaligned",
    "C35_sort_memory",
    "C35_sort_refuted",
    "C35_file_refuted",
    "C35_file_twice_refuted"
   ],
   "note": "REFUTED as stated: a range that starts inside a block, ends at a block boundary and does not fit into memory is undefined behaviour (sort.h 882 reads behind the result), for every input; a vector in a file with unaligned start is not sorted in the file. Proved for all other ranges, for every comparison, in-memory sort, allocator, block size, memory size and merge factor."
  },
  {
   "property": "C36",
   "status": "partial",
   "theorems": [
    "C36_sorts_partial",
    "C36_empty_never",
    "C36_unaligned_never",
    "C36_stable_refuted",
    "C36_defined_refuted"
   ],
   "note": "REFUTED: not stable even for evenly distributed keys (sort3 exchanges equal keys); undefined behaviour if a bucket is empty, if the first part of a bucket has fewer than two elements, or if the range starts at a block boundary but does not end at one. Proved: for evenly distributed keys and suitable ranges the range is sorted by key and the rest of the vector is unchanged."
  },
  {
   "property": "C37",
   "status": "partial",
   "theorems": [
    "C37_priority_queue",
    "C37_sorts",
    "C37_refuted_levels",
    "C37_refuted_arity",
    "C37_refuted_buffer",
    "C37_refuted_power",
    "C37_refuted_external"
   ],
   "note": "REFUTED for every tuning: with more than four levels (the default of priority_queue_config has 4+2) refilling throws; with internal arity below levels+1 (2 or 4, both reachable through the generator) emptying the group buffers overruns the first merger; also delete buffer larger than N, internal arity no power of two, external arity 1, no external level, empty write pool. Proved for every configuration outside these (config_ok), every strict weak order, every history within the preconditions: no failure, top/pop show a maximal element, the bag of elements is preserved, size/empty are right."
  },
  {
   "property": "C38",
   "status": "partial",
   "theorems": [
    "C38_winner_partial",
    "C38_slots",
    "C38_growth_never",
    "C38_growth_refuted"
   ],
   "note": "REFUTED: adding a player beyond the slots never succeeds (the loop in double_num_slots has an unsigned counter compared with >= 0 and leaves the array). Proved for all admissible sequences within the slots: every operation is defined, has its effect on the values, and top names a smallest player (or none)."
  },
  {
   "property": "C39",
   "status": "proved",
   "theorems": [
    "C39_map",
    "C39_spec_sorted",
    "C39_node_cache_refuted"
   ],
   "note": "C39_map: every program that is valid for a sorted map (iterators included) gives the same results on the B+-tree and hits no failed assertion, for every leaf and node size >= 4 (which the code asserts), as long as there are fewer elements than any tree of the height allowed by the node cache holds; C39_node_cache_refuted shows that beyond, the tree throws. Trees built by insertion; caches transparent. Bulk construction: not covered here."
  },
  {
   "property": "C40",
   "status": "partial",
   "theorems": [
    "C40_hash_map_partial",
    "C40_hash_map_safe",
    "C40_find_next",
    "C40_high_hash_refuted",
    "C40_high_hash_bucket",
    "C40_no_buckets",
    "C40_default_constructed_refuted",
    "C40_emptied_refuted",
    "C40_index_size_refuted",
    "C40_index_loses_refuted",
    "C40_erase_oblivious_loses_refuted",
    "C40_equal_range_refuted",
    "C40_equal_range_empty"
   ],
   "note": "REFUTED as stated: a hash value in the last 1024 of uint64 indexes a bucket that does not exist; a map without buckets (default-constructed, or rehashed after its last value was erased) is indexed by find, erase, count, operator[], insert_oblivious; operator[] does not count the value it creates, so size() is wrong and rehash(0) loses values; erase_oblivious of an absent key counts down, with the same loss; equal_range is always empty. Proved for every history outside of these cases: all results are those of a map and iteration gives every value once in key order, for every buffer size, hash function below the last 1024 values, and any content of unwritten memory."
  },
  {
   "property": "C41",
   "status": "proved",
   "theorems": [
    "C41_varint32_round_trip",
    "C41_varint64_round_trip",
    "C41_varint_length",
    "C41_varint_widths_agree",
    "C41_varint_decoders"
   ],
   "note": "encoders/decoders modelled at byte level"
  },
  {
   "property": "C42",
   "status": "partial",
   "theorems": [
    "C42_read_bounds_refuted",
    "C42_skip_moves_backwards_refuted",
    "C42_read_bounds_partial",
    "C42_skip_bounds_partial",
    "C42_typed_reads_in_bounds"
   ],
   "note": "REFUTED as stated: cursor + n wraps modulo 2^64, so a huge length passes the bounds check. Proved: bounds hold whenever cursor + n < 2^64, and always for the typed reads."
  },
  {
   "property": "C43",
   "status": "proved",
   "theorems": [
    "C43_append_concatenates",
    "C43_align_pads",
    "C43_log_round_trip",
    "C43_ref_equality"
   ],
   "note": "binary_buffer as an append log"
  },
  {
   "property": "C44",
   "status": "proved",
   "theorems": [
    "C44_uint_pair_conversions",
    "C44_uint_pair_arithmetic",
    "C44_uint_pair_comparisons",
    "C44_uint_pair_limits"
   ],
   "note": "uint40 and uint48"
  },
  {
   "property": "C45",
   "status": "proved",
   "theorems": [
    "C45_no_use_after_free",
    "C45_never_early_never_twice",
    "C45_never_late",
    "C45_destroyed_iff_unreferenced",
    "C45_operations_mean_what_they_say"
   ],
   "note": "All interleavings of atomic counter actions of any number of threads; client data races on one pointer variable are excluded (outcome Race)."
  },
  {
   "property": "C46",
   "status": "proved",
   "theorems": [
    "C46_fifo_queue",
    "C46_priority_queue"
   ],
   "note": "Refinement of a duplicate-free list / a partial map, for every history; keys with a strict total order, priorities with a strict weak order."
  },
  {
   "property": "C47",
   "status": "partial",
   "theorems": [
    "C47_reads_partial",
    "C47_progress",
    "C47_rewrite_refuted",
    "C47_after_throw_refuted",
    "C47_unwritten_refuted"
   ],
   "note": "REFUTED as stated: rewriting a block of a full file throws and loses the block (C47_rewrite_refuted); after an out-of-space exception the next write that fits overwrites another block (C47_after_throw_refuted); reading an unwritten block may fail an assertion because 0xffffffff is used as its address (C47_unwritten_refuted). Proved for every history up to the first exception and every schedule of the background writes: reads return what was written, places lie in the file and do not overlap, and a write throws only if no W consecutive units are left. Missing: histories that go on after an exception, several threads."
  },
  {
   "property": "C48",
   "status": "partial",
   "theorems": [
    "C48_permutation_partial",
    "C48_safe",
    "C48_returns",
    "C48_empty_stuck",
    "C48_endless_refuted",
    "C48_empty_refuted",
    "C48_page_refuted"
   ],
   "note": "REFUTED as stated: with a constant generator the recursion never ends; empty aligned ranges and pages of 12 blocks fail assertions. Proved: every call that returns has permuted exactly the range; no assertion fails for pages below 12 blocks and non-empty or unaligned ranges; the call returns if the range fits into memory."
  },
  {
   "property": "C49",
   "status": "proved",
   "theorems": [
    "C49_iterator",
    "C49_generator",
    "C49_vector",
    "C49_vector_sr",
    "C49_transform",
    "C49_make_tuple",
    "C49_choose",
    "C49_unique",
    "C49_materialize",
    "C49_discard",
    "C49_materialize_vector"
   ],
   "note": "Streams are state machines; inputs of transform and make_tuple are a list (any length) of streams of one type; vectors as in ScanModel. unique keeps an element when pred(candidate, last kept) is false: the argument order is the reverse of std::unique."
  },
  {
   "property": "C50",
   "status": "proved",
   "theorems": [
    "C50_sorter",
    "C50_push_sort_read"
   ],
   "note": "Every sequence of operations: what the sorter shows is what a bag of items shows (sorted delivery after sort(), sort_reuse(), rewind(), after clear(), finish(), with exceptions only for too little memory); blocks are freed, other blocks untouched. Two functions deviate before sort(): see C71. optimal_merge_factor is taken as any function with values between 2 and its second argument (the exact value is, C72; the floating point code gives 11 for 100000 runs and arity 10, then an assertion fails). Requests of runs_creator are done at once in this model."
  },
  {
   "property": "C51",
   "status": "proved",
   "theorems": [
    "C51_index_bijection",
    "C51_index_arithmetic",
    "C51_index_comparisons"
   ],
   "note": "64-bit arithmetic with wrap-around modelled"
  },
  {
   "property": "C52",
   "status": "proved",
   "theorems": [
    "C52_content",
    "C52_progress",
    "C52_memory",
    "C52_kept",
    "C52_no_leak",
    "C52_uninitialized_refuted"
   ],
   "note": "Every history of calls, every schedule of the transfers, every number of internal blocks, changes between online_lru, simulation and offline_lfd (offline_lru_prefetching not modelled). C52_kept is the statement; C52_content the refinement it follows from. C52_uninitialized_refuted marks the limit: a block acquired as uninitialized and released as unchanged does not keep its content."
  },
  {
   "property": "C53",
   "status": "proved",
   "theorems": [
    "C53_partition",
    "C53_selection"
   ],
   "note": "For all sorted non-empty sequences (the code asserts that none is empty) shorter than 2^62 and all ranks."
  },
  {
   "property": "C54",
   "status": "partial",
   "theorems": [
    "C54_overlapping_reads_refuted",
    "C11_read_latest_write"
   ],
   "note": "REFUTED: a read takes an unfinished write out of the write pool; a second read goes to disk and can overtake it. True for clients that wait (C11)."
  },
  {
   "property": "C55",
   "status": "proved",
   "theorems": [
    "C55_schedule_independent",
    "C55_same_result",
    "C55_disk_contents",
    "C55_progress"
   ],
   "note": ""
  },
  {
   "property": "C56",
   "status": "partial",
   "theorems": [
    "C56_push_own_element_refuted",
    "C56_push_front_own_element_refuted",
    "C18_sequence_deque"
   ],
   "note": "REFUTED: with blocks of 3 elements, q.push(q.front()) appends 3 instead of 2, because push compacts the front block before it reads its argument; likewise push_front(back()). The claim holds for pushes of values (C18_sequence_deque)."
  },
  {
   "property": "C57",
   "status": "proved",
   "theorems": [
    "C57_sequence_streams",
    "C18_sequence_deque"
   ],
   "note": "Complete traversals by stream and reverse_stream after any history; sequence unchanged afterwards. Pool replaced by its specification (C11)."
  },
  {
   "property": "C58",
   "status": "partial",
   "theorems": [
    "C58_vector_own_elements_lru",
    "C58_vector_own_elements_refuted"
   ],
   "note": "Proved for lru_pager with at least 2 pages; REFUTED for one cached page and for random_pager."
  },
  {
   "property": "C59",
   "status": "proved",
   "theorems": [
    "C59_vector_returns_blocks"
   ],
   "note": "Histories without resize(n, true) and without giving the blocks away."
  },
  {
   "property": "C60",
   "status": "partial",
   "theorems": [
    "C60_deque_iterators",
    "C60_deque_iterators_negative_partial",
    "C60_deque_iterators_negative_refuted"
   ],
   "note": "Proved for steps that are not negative, ++, --, differences and comparisons. REFUTED for it + (-k) crossing the start of a vector whose size does not divide 2^64."
  },
  {
   "property": "C61",
   "status": "partial",
   "theorems": [
    "C61_ksort",
    "C61_ksort_two_blocks",
    "C61_ksort_refuted"
   ],
   "note": "REFUTED as stated: with memory for two blocks a run has zero blocks (division by zero) for every input. Proved whenever a run has at least one block and the range is not start-unaligned/end-aligned; the radix sort inside a run is a parameter with the specification of a sort."
  },
  {
   "property": "C62",
   "status": "partial",
   "theorems": [
    "C62_run_partial",
    "C62_instance",
    "C62_l1sort",
    "C62_shift_never",
    "C62_small_never",
    "C62_shift_refuted"
   ],
   "note": "REFUTED: when the references of a run occupy one to two times STXXL_L2_SIZE, log_k1 is 0 and keys are shifted by their full width (undefined), e.g. 2^15 elements with 16-byte references; also undefined for fewer than four elements. Proved for all other runs: defined, permutation, sorted, writes in bounds; instance of the run sort used in C61. Key types narrower than int are not modelled."
  },
  {
   "property": "C63",
   "status": "proved",
   "theorems": [
    "C63_for_each",
    "C63_for_each_m",
    "C63_generate",
    "C63_find"
   ],
   "note": "All ranges within the whole blocks of the vector; streams abstracted by C33."
  },
  {
   "property": "C64",
   "status": "partial",
   "theorems": [
    "C64_memory_partial",
    "C64_memory_refuted"
   ],
   "note": "REFUTED: each recursion adds a page to the accounted memory and never takes it back. Proved for runs without recursion."
  },
  {
   "property": "C65",
   "status": "partial",
   "theorems": [
    "C65_ties_refuted",
    "C53_partition"
   ],
   "note": "REFUTED: of [2],[2,2],[1] at rank 3 the split takes both elements of the second sequence and none of the first. True is only what C53_partition says."
  },
  {
   "property": "C66",
   "status": "proved",
   "theorems": [
    "C66_ilog2_floor",
    "C66_ilog2_ceil",
    "C66_div_ceil",
    "C66_round_up",
    "C66_round_up_multiple"
   ],
   "note": "The documentation of round_up_to_power_of_two(n, power) gives (48,4) = 64; the function returns 48 there, the least multiple of 16."
  },
  {
   "property": "C67",
   "status": "proved",
   "theorems": [
    "C67_longhash1"
   ],
   "note": "For 64-bit size_t."
  },
  {
   "property": "C68",
   "status": "partial",
   "theorems": [
    "C68_copy_partial",
    "C68_original_refuted",
    "C68_destroy_refuted"
   ],
   "note": "REFUTED: the copy constructor of vector_iterator2stream takes the reader away from the original (auto_ptr-like), so the original fails afterwards; vector_iterator2stream_sr copies its pointer and deletes it in both destructors. Proved: the copy delivers the remaining elements."
  },
  {
   "property": "C69",
   "status": "proved",
   "theorems": [
    "C69_stream_sort"
   ],
   "note": "Requests done at once; exact merge factor as in C50."
  },
  {
   "property": "C70",
   "status": "proved",
   "theorems": [
    "C70_merge_sequences"
   ],
   "note": "Requests done at once; exact merge factor as in C50."
  },
  {
   "property": "C71",
   "status": "partial",
   "theorems": [
    "C71_size_refuted",
    "C71_finish_clear_refuted",
    "C50_sorter"
   ],
   "note": "REFUTED: after finish() the last run is counted twice by size(); finish_clear() in the input state keeps all items. C50_sorter shows that these are the only deviations, and that size() is right before finish()."
  },
  {
   "property": "C72",
   "status": "proved",
   "theorems": [
    "C72_merge_factor"
   ],
   "note": "Exact arithmetic instead of doubles (sort_base.h:40-43); rounding can make the code deviate when the number of runs is a power of the arity."
  },
  {
   "property": "C73",
   "status": "partial",
   "theorems": [
    "C73_runs_partial",
    "C73_runs_progress",
    "C73_destroy_refuted",
    "C73_clear_refuted"
   ],
   "note": "REFUTED as stated: destructor and clear() do not wait for the writes of a run under way, so that freed blocks are written later. Proved for every schedule if clear(), allocate() and the destructor are used while no run is under way."
  },
  {
   "property": "C74",
   "status": "partial",
   "theorems": [
    "C74_simulation_partial",
    "C74_free_refuted",
    "C74_free_data_refuted"
   ],
   "note": "REFUTED for free_swappable_block: it puts the block on the list of free blocks although the call is only simulated, so allocate_swappable_block returns blocks in use or the same block twice. Without it, contents are proved unchanged."
  },
  {
   "property": "C75",
   "status": "partial",
   "theorems": [
    "C75_generator",
    "C75_small_elements",
    "C75_works",
    "C75_refuted"
   ],
   "note": "REFUTED: 64-byte elements, 344 KiB, 360448 elements give internal arity 2, and a run with about 2000 elements overruns the first merger. Proved: a found configuration is good exactly if its internal arity is at least 8, and it is for elements of at most 11 bytes with Tune >= 3."
  },
  {
   "property": "C76",
   "status": "partial",
   "theorems": [
    "C76_iterators",
    "C76_end_after_clear_refuted",
    "C76_end_after_erase_refuted"
   ],
   "note": "Proved for iterators on elements (and, by C39_map, for end() until the map is cleared or all is erased as one range). REFUTED for end(): after clear() or erase(begin(), end()) an old end() differs from the new one, unlike in a std::map."
  },
  {
   "property": "C77",
   "status": "proved",
   "theorems": [
    "C77_bulk",
    "C77_same_as_insert",
    "C77_fill_factor_refuted"
   ],
   "note": "Fill factors are exact fractions in [1/2,1]. map.h documents [0,1]; C77_fill_factor_refuted shows that factors below one half fail an assertion."
  },
  {
   "property": "C78",
   "status": "proved",
   "theorems": [
    "C78_transparent",
    "C78_too_small",
    "C78_statistics"
   ],
   "note": "Refinement for every valid program, content on disk after the destructor, counters."
  },
  {
   "property": "C79",
   "status": "partial",
   "theorems": [
    "C79_swap_refuted",
    "C79_swap_statistics_refuted",
    "C79_swap_partial"
   ],
   "note": "REFUTED: swap does not exchange m_dirty (a modified node in a place that is clean in the other cache is lost) and exchanges n_not_found with the other cache's n_found. True when the dirty flags agree."
  },
  {
   "property": "C80",
   "status": "partial",
   "theorems": [
    "C80_fixed_stays_refuted",
    "C80_fixed_stays_partial"
   ],
   "note": "REFUTED: another request for the node with fix = false ends the fixing. True if there is no such request."
  },
  {
   "property": "C81",
   "status": "proved",
   "theorems": [
    "C81_matrix_objects_are_values"
   ],
   "note": "Whole programs, by refinement to matrices as functions. Hypotheses: ring laws for the element type (so no floating-point rounding), block side > 0; statements whose operands do not exist or do not fit are excluded. Iterators are not part of these programs."
  },
  {
   "property": "C82",
   "status": "proved",
   "theorems": [
    "C82_products",
    "C82_algorithm_not_observable"
   ],
   "note": "Algorithms 0, 1, 2, 4, 5 of matrix::multiply; ring laws assumed. Algorithms 3 and 6 (feedable) are not part of this claim."
  },
  {
   "property": "C83",
   "status": "partial",
   "theorems": [
    "C83_from_vectors_refuted",
    "C83_not_correct",
    "C83_from_vectors_partial"
   ],
   "note": "REFUTED: recursive_matrix_from_vectors takes the block matrix by value, so the products are written to a copy; for all inputs the matrix has the right size and every element is zero."
  },
  {
   "property": "C84",
   "status": "partial",
   "theorems": [
    "C84_block_grained_refuted",
    "C84_block_grained_sizes_refuted",
    "C84_transposed_refuted",
    "C84_sizes_refuted",
    "C84_not_correct",
    "C84_multi_level_partial",
    "C84_programs_partial"
   ],
   "note": "REFUTED: algorithm 6 passes the padded first operand twice (computes A*A from five blocks a side on); leaves of the product tree allocate the second operand with the shape of the first; algorithm 3 reads transposed operands as if they were not. Proved if one of the three sides has at most two (algorithm 3) or four (algorithm 6) blocks, for products and for whole programs."
  },
  {
   "property": "C85",
   "status": "partial",
   "theorems": [
    "C85_iterators_denote_positions",
    "C85_traversal_visits_every_element",
    "C85_empty_matrix_refuted"
   ],
   "note": "REFUTED for empty matrices: begin() differs from end() when height or width is 0, so the usual loop dereferences an element that does not exist. Everything else is proved for every program."
  },
  {
   "property": "C86",
   "status": "partial",
   "theorems": [
    "C86_iterators_refuted",
    "C86_assignment_across_matrices_refuted",
    "C86_write_after_copy_refuted",
    "C86_change_after_copy_refuted",
    "C86_iterators_partial"
   ],
   "note": "REFUTED: operator = keeps the acquired block of the other matrix; a matrix copied under a live mutable iterator shares its blocks with it; unify after a copy makes the iterator release a block it has not acquired. True under the restrictions of C85."
  },
  {
   "property": "C87",
   "status": "partial",
   "theorems": [
    "C87_block_cache_partial",
    "C87_block_cache_refuted"
   ],
   "note": "REFUTED for devices that do not serve requests for one block in order of submission: get_subblock reads a block whose write is still pending. Proved in full for ordered devices, all schedules and all programs."
  },
  {
   "property": "C88",
   "status": "partial",
   "theorems": [
    "C88_flush_usable_refuted",
    "C88_flush_clear_partial"
   ],
   "note": "REFUTED: after flush a formerly dirty block is found in the cache with a strange buffer. Proved: flush leaves all contents on disk, flush followed by clear keeps all contents."
  },
  {
   "property": "C89",
   "status": "partial",
   "theorems": [
    "C89_statistics",
    "C89_swap_statistics_refuted",
    "C89_swap_partial"
   ],
   "note": "Counters proved; REFUTED: swap mixes n_found and n_not_found; what swap does is proved exactly."
  },
  {
   "property": "C90",
   "status": "partial",
   "theorems": [
    "C90_lru_refuted",
    "C90_fifo_partial",
    "C90_victim_partial"
   ],
   "note": "REFUTED: found blocks are not reported to the pager. Proved: replacement is first in, first out; with retained blocks the oldest not retained."
  },
  {
   "property": "C91",
   "status": "partial",
   "theorems": [
    "C91_hash_map_iterators_partial",
    "C91_index_stale_refuted",
    "C91_begin_skips_refuted",
    "C91_erased_equal_refuted"
   ],
   "note": "REFUTED in three cases (operator[] with an iterator at the key, begin() followed by insertion and ++, comparison of an erased iterator with one at a new value); proved for all programs that avoid them and the restrictions of C40."
  },
  {
   "property": "C92",
   "status": "partial",
   "theorems": [
    "C92_swap_value_refuted",
    "C92_swap_destructor_refuted",
    "C92_swap_partial"
   ],
   "note": "REFUTED for iterators that are alive during swap; proved when no iterator is at a value."
  },
  {
   "property": "C93",
   "status": "partial",
   "theorems": [
    "C93_readers_partial",
    "C93_scan",
    "C93_increment_refuted",
    "C93_two_readers_refuted",
    "C93_skip_to_end_refuted",
    "C93_assignment_lost_refuted"
   ],
   "note": "REFUTED in four ways: operator++ retains the next block before it is loaded, the constructor releases a block another reader retained, skip_to(end) releases twice, dirty_ survives eviction so that assignments are lost. Proved for programs without these cases, and for an undisturbed scan."
  },
  {
   "property": "C94",
   "status": "proved",
   "theorems": [
    "C94_reader",
    "C94_reader_progress",
    "C94_reverse_stream",
    "C94_reverse_stream_progress"
   ],
   "note": "Readers in both directions over the prefetcher with its own schedule, every order of completion; block()/next_block() are not modelled."
  },
  {
   "property": "C95",
   "status": "proved",
   "theorems": [
    "C95_counters",
    "C95_scoped_timers"
   ],
   "note": "All interleavings; counters modulo their widths."
  },
  {
   "property": "C96",
   "status": "proved",
   "theorems": [
    "C96_serial_times",
    "C96_operations"
   ],
   "note": "All interleavings; exact arithmetic instead of double."
  },
  {
   "property": "C97",
   "status": "partial",
   "theorems": [
    "C97_interrupted_refuted",
    "C97_negative_refuted",
    "C97_parallel_times_partial"
   ],
   "note": "REFUTED: a thread interrupted between its timestamp and the mutex makes time count twice; an asynchronous read that ends before it is entered makes the parallel time negative. Proved for runs in which no call is interrupted."
  },
  {
   "property": "C98",
   "status": "partial",
   "theorems": [
    "C98_wait_times",
    "C98_waits",
    "C98_reset_refuted",
    "C98_reset_partial"
   ],
   "note": "Wait times proved for all interleavings. reset() REFUTED while an operation runs (times exceed the time since the reset); proved when nothing runs."
  },
  {
   "property": "C99",
   "status": "proved",
   "theorems": [
    "C99_once",
    "C99_fifo",
    "C99_after_kernel",
    "C99_bounded"
   ],
   "note": "For all executions, including EAGAIN, cancelling and shutdown; the caller adds a request object once."
  },
  {
   "property": "C100",
   "status": "partial",
   "theorems": [
    "C100_cancel_deadlock_refuted",
    "C100_again_deadlock_refuted",
    "C100_shutdown_refuted",
    "C100_completes_partial",
    "C100_no_cancel_partial",
    "C100_destructor_partial"
   ],
   "note": "REFUTED in three ways: cancel_request blocks on the semaphore while it holds waiting_mtx (nothing can move any more); after EAGAIN the posting thread waits for a token that the waiting thread took; the destructor can return with requests that are not ready. True part, without EAGAIN: finitely many internal steps, and at their end all requests are ready, or the destructor has returned, or a caller of cancel is stuck in the first way."
  },
  {
   "property": "C101",
   "status": "partial",
   "theorems": [
    "C101_negotiation_refuted",
    "C101_negotiation_partial"
   ],
   "note": "REFUTED: the loop doubles the number of events instead of halving it. True part: the exact outcome; success iff the first attempt succeeds."
  },
  {
   "property": "C102",
   "status": "partial",
   "theorems": [
    "C102_errors_refuted",
    "C102_no_invented_error_partial"
   ],
   "note": "REFUTED: handle_events ignores the result of the event. True part: no error is invented."
  },
  {
   "property": "C103",
   "status": "partial",
   "theorems": [
    "C103_references_refuted",
    "C103_references_partial"
   ],
   "note": "REFUTED: each EAGAIN leaves one reference. True part: exact count of the references, so none is left without EAGAIN."
  },
  {
   "property": "C104",
   "status": "partial",
   "theorems": [
    "C104_exact",
    "C104_sound_partial",
    "C104_no_number_refuted",
    "C104_overflow_refuted"
   ],
   "note": "REFUTED: strings without a number (empty, 'GiB') are accepted as 0, '-1B' is accepted as 2^64-1, sizes beyond 64 bits wrap silently. Proved: every size of the grammar is accepted with its exact value if number and product fit in 64 bits; a string starting with a digit is accepted only if it is in the grammar."
  },
  {
   "property": "C105",
   "status": "partial",
   "theorems": [
    "C105_roundtrip_partial",
    "C105_lines_partial",
    "C105_known",
    "C105_flash_refuted",
    "C105_queue_refuted",
    "C105_number_refuted"
   ],
   "note": "REFUTED: the options written for any flash disk are rejected by the parser, queue=-2 is not written, options without number are read as 0. Proved: round trip for all other disks of accepted lines; accepted options are the documented ones."
  },
  {
   "property": "C106",
   "status": "partial",
   "theorems": [
    "C106_line",
    "C106_ranges",
    "C106_add_disk_refuted",
    "C106_two_files_refuted",
    "C106_half_loaded_refuted",
    "C106_exception_refuted",
    "C106_reuse_refuted"
   ],
   "note": "REFUTED: with add_disk only the ranges are uninitialized, a second file puts flash disks into the regular range, a failed file stays half loaded, a missing fileio throws std::out_of_range, a reused disk_config keeps raw_device and queue_length. Proved: fields of a line and exact ranges after one file."
  },
  {
   "property": "C107",
   "status": "partial",
   "theorems": [
    "C107_ids_partial",
    "C107_queues",
    "C107_ids_refuted",
    "C107_uninitialized_refuted"
   ],
   "note": "REFUTED: a later explicit id can equal an automatic one, the counter wraps after 2^32-2, and it is read uninitialized before initialize(). Proved: explicit ids are kept, an automatic id differs from all earlier ids when ids stay below 2^32; queues exactly as documented."
  },
  {
   "property": "C108",
   "status": "partial",
   "theorems": [
    "C108_split",
    "C108_empty",
    "C108_limit_refuted"
   ],
   "note": "REFUTED only for limit_fields = 0 and for min_fields > limit_fields (more fields than the limit). Proved for every other limit: join of fields, bounds on their number, separators only in the last field at the limit."
  },
  {
   "property": "C109",
   "status": "partial",
   "theorems": [
    "C109_read",
    "C109_write",
    "C109_frame",
    "C109_ends",
    "C109_succeeds_partial",
    "C109_past_end_refuted"
   ],
   "note": "Exactness, frame of failing writes and termination hold for all answers of the kernel. REFUTED only in that an error-free read throws when it starts at or behind the end of the file (one that crosses the end is zero-filled); success is proved for reads starting inside."
  },
  {
   "property": "C110",
   "status": "partial",
   "theorems": [
    "C110_syscall",
    "C110_mmap",
    "C110_mmap_last_page",
    "C110_mem",
    "C110_mem_exact",
    "C110_mem_defined",
    "C110_discard",
    "C110_set_size",
    "C110_outside_refuted",
    "C110_mmap_tail_refuted",
    "C110_grow_refuted",
    "C110_set_size_refuted"
   ],
   "note": "REFUTED in general: outside the file the three implementations extend, crash, drop the tail (mmap inside the last page) or destroy memory; empty or unaligned accesses throw only with mmap; a grown mem_file has undefined bytes; set_size of a read-only file does nothing. Proved: programs of page-aligned, non-empty accesses inside the file agree with one specification on all three; for mem_file also exactly which bytes are defined."
  },
  {
   "property": "C111",
   "status": "partial",
   "theorems": [
    "C111_blocks_partial",
    "C111_names",
    "C111_short_read_refuted",
    "C111_offset_refuted",
    "C111_size_refuted"
   ],
   "note": "REFUTED in general: a read shorter than the block truncates it, another offset inside a block reads zeros, the size is 0 after reopening. Proved: with one length for each offset all reads return the last write or zeros; names are injective and differ from the lock file."
  },
  {
   "property": "C112",
   "status": "partial",
   "theorems": [
    "C112_open",
    "C112_fallback",
    "C112_close_partial",
    "C112_leak_refuted",
    "C112_double_close_refuted"
   ],
   "note": "REFUTED: a constructor that throws in fstat or lock leaks its descriptor, a failed close is repeated on the same number. Proved: a constructed file holds one descriptor with the required O_DIRECT mode, and a successful close releases it once."
  },
  {
   "property": "C113",
   "status": "partial",
   "theorems": [
    "C113_exact",
    "C113_documented_partial",
    "C113_ends",
    "C113_help",
    "C113_ignored_refuted",
    "C113_separator_refuted",
    "C113_help_value_refuted",
    "C113_atomic_refuted"
   ],
   "note": "Exact characterization of the accepted command lines and of the values proved in both directions (without argument_double). REFUTED as stated: wrong command lines are accepted (-n5, lone dash, 12abc, negative unsigned), -- is rejected, -h as a value asks for help, rejected command lines change variables."
  },
  {
   "property": "C114",
   "status": "partial",
   "theorems": [
    "C114_order",
    "C114_required",
    "C114_after_list_refuted",
    "C114_stale_refuted"
   ],
   "note": "Order and required parameters proved for a fresh parser. REFUTED: a required parameter behind a list can never be given; a second call of process() does not ask for required parameters again."
  },
  {
   "property": "C115",
   "status": "partial",
   "theorems": [
    "C115_text",
    "C115_width",
    "C115_ends_partial",
    "C115_usage_partial",
    "C115_hang_refuted",
    "C115_usage_refuted",
    "C115_cut_refuted"
   ],
   "note": "Content and width proved whenever it ends. REFUTED: it never ends when the indentation reaches the width, so print_usage hangs for option texts of 76 or more characters (ends for shorter ones); a word that fits on a line can be cut."
  },
  {
   "property": "C116",
   "status": "partial",
   "theorems": [
    "C116_sequential_merge",
    "C116_clamped",
    "C116_all_empty_refuted",
    "C116_too_long_refuted"
   ],
   "note": "Proved for BUBBLE and LOSER_TREE and lengths up to the number of elements. REFUTED as stated: five or more empty sequences dereference a null pointer, and up to four sequences are read past their ends when length exceeds the number of elements."
  },
  {
   "property": "C117",
   "status": "partial",
   "theorems": [
    "C117_combined_partial",
    "C117_four_refuted",
    "C117_stable_tree_refuted",
    "C117_stable_eight_refuted"
   ],
   "note": "REFUTED as stated: four sequences compare behind the end, stable loser trees use source -1 or read behind the end. Proved for up to three sequences, four with a readable element behind each, five or more when not stable."
  },
  {
   "property": "C118",
   "status": "partial",
   "theorems": [
    "C118_sentinels_partial",
    "C118_copied_stable_refuted"
   ],
   "note": "REFUTED for stable merging of five or more sequences of built-in integers (wrong comparison in LoserTreeCopyUnguarded<true>). Proved otherwise."
  },
  {
   "property": "C119",
   "status": "partial",
   "theorems": [
    "C119_exact_partial",
    "C119_ties_refuted",
    "C119_crossing_refuted",
    "C119_one_thread_refuted",
    "C119_empty_part_refuted"
   ],
   "note": "REFUTED as stated: splits for equal elements cross (end of a part before its beginning), one thread with length below the total reads an empty vector, a part of five or more empty sequences dereferences null. Proved without ties between sequences (or two threads and all elements) and parts that are not empty, for all interleavings of the writes."
  },
  {
   "property": "C120",
   "status": "partial",
   "theorems": [
    "C120_stable_partial",
    "C120_stable_refuted"
   ],
   "note": "REFUTED as stated: two threads put elements of the second sequence before an equivalent one of the first. Proved when no two sequences have equivalent elements."
  },
  {
   "property": "C121",
   "status": "partial",
   "theorems": [
    "C121_sampling_partial",
    "C121_equal_refuted",
    "C121_short_refuted"
   ],
   "note": "REFUTED as stated: equal elements in five sequences give a thread empty sequences only (null pointer in the loser tree); for lengths below the total the iterators go to the ends. Proved for all elements, stable or not, ties included, up to four sequences or BUBBLE, any samples."
  },
  {
   "property": "C122",
   "status": "partial",
   "theorems": [
    "C122_exact_partial",
    "C122_ties_refuted",
    "C122_stable_refuted"
   ],
   "note": "REFUTED for equivalent elements: with three threads and 14 equal elements a part ends before it begins, and with two threads the stable sort reorders equivalent elements. Proved: pairwise different elements with any number of threads, or any elements with at most two threads and not stable."
  },
  {
   "property": "C123",
   "status": "partial",
   "theorems": [
    "C123_sampling_partial",
    "C123_short_refuted",
    "C123_equal_refuted"
   ],
   "note": "REFUTED: short arrays are read past their end for samples; equal elements with five threads give a loser tree of empty sequences. Proved, ties and stability included: at least 10 * threads * threads elements, and bubble merging or at most four threads."
  },
  {
   "property": "C124",
   "status": "partial",
   "theorems": [
    "C124_history_partial",
    "C124_bulk_pop_zero_refuted"
   ],
   "note": "REFUTED for bulk_pop(out, 0): refill_extract_buffer takes a maximum of 0 as the extract buffer limit and extracts elements. Otherwise proved for every sequence of calls in which no assertion fails, for all memory and prefetching decisions; multiway_merge and sorting are hypotheses with a proved instance."
  },
  {
   "property": "C125",
   "status": "partial",
   "theorems": [
    "C125_progress_partial",
    "C125_skipped_merge_refuted",
    "C125_emptied_array_refuted"
   ],
   "note": "REFUTED: after merging a full external level was skipped for lack of memory, the next array makes 65 and the assertion of exactly 64 fails; bulk_pop_limit asserts (debug builds) that no internal array is empty, but pop leaves an emptied one in place. Proved: top and pop complete on a non-empty queue when hinted blocks arrive, bulk_pop gets min(n, size) elements, bulk_pop_limit stops early only at max_size (both if they complete)."
  },
  {
   "property": "C126",
   "status": "partial",
   "theorems": [
    "C126_session_partial",
    "C126_progress_partial",
    "C126_flushed_buffer_refuted",
    "C126_delayed_hints_refuted"
   ],
   "note": "REFUTED: limit_push may flush the extract buffer, then limit_pop after limit_top fails its assertion, and limit_top may read an empty buffer since hinting is delayed. Proved: every session in which no call fails conforms to a bag with a limit, for all memory and prefetching decisions, and the queue continues as C124 afterwards; if blocks arrive, limit_top completes at any point and limit_pop right after it."
  },
  {
   "property": "C127",
   "status": "proved",
   "theorems": [
    "C127_push_heap",
    "C127_resift",
    "C127_root"
   ],
   "note": "The project's own push_heap and the loop of bulk_push_end; std::push_heap is modelled by the project's push_heap behind its precondition."
  },
  {
   "property": "C128",
   "status": "proved",
   "theorems": [
    "C128_bulk_pushes"
   ],
   "note": "Calls one after another; concurrent bulk_push calls are not interleaved within a call. The winner tree is reduced to the root it was last told for each heap."
  },
  {
   "property": "C129",
   "status": "partial",
   "theorems": [
    "C129_race_refuted",
    "C129_no_race_partial"
   ],
   "note": "REFUTED: std::sort of a full heap runs before the critical section of flush_insertion_heap, while deactivate_heap inside it compares with the roots of other heaps in the winner tree, so one thread reads a heap another one is sorting. Strongest true part: schedules without such a read leave a correct tree once all flushes are done, although sorting changes roots without telling the tree, and entering while nobody sorts is always defined. Not modelled: the head tree."
  }
 ]
}
