{
 "claims": [
  {
   "property": "C01",
   "status": "proved",
   "theorems": [
    "C01_has_single_bit_iff_power_of_two"
   ],
   "note": ""
  },
  {
   "property": "C02",
   "status": "proved",
   "theorems": [
    "C02_bit_ceil_least_power",
    "C02_least_power_exists"
   ],
   "note": ""
  },
  {
   "property": "C03",
   "status": "proved",
   "theorems": [
    "C03_bit_floor_greatest_power",
    "C03_bit_floor_zero"
   ],
   "note": ""
  },
  {
   "property": "C04",
   "status": "proved",
   "theorems": [
    "C04_bit_mod_is_modulus"
   ],
   "note": ""
  },
  {
   "property": "C05",
   "status": "proved",
   "theorems": [
    "C05_bit_width_minimal"
   ],
   "note": ""
  },
  {
   "property": "C06",
   "status": "proved",
   "theorems": [
    "C06_popcount_counts_ones"
   ],
   "note": ""
  },
  {
   "property": "C07",
   "status": "proved",
   "theorems": [
    "C07_bit_cast_lossless"
   ],
   "note": ""
  },
  {
   "property": "C08",
   "status": "proved",
   "theorems": [
    "C08_fetch_inc_mod",
    "C08_fetch_dec_mod",
    "C08_ring_sequence"
   ],
   "note": ""
  },
  {
   "property": "C09",
   "status": "partial",
   "theorems": [
    "C09_operation_stores",
    "C09_gpu_linearizable",
    "C09_openmp_linearizable_partial",
    "C09_gpu_order_in_time",
    "C09_openmp_order_in_time_partial",
    "C09_openmp_mixed_refuted",
    "C09_tickets"
   ],
   "note": "Linearizable for all programs on the CUDA/HIP backends. On OpenMP proved when one cell is not used with both omp-critical and omp-atomic read-modify-writes; refuted when they are mixed (fetch_max vs fetch_add). The order respects time (C09_*_order_in_time)."
  },
  {
   "property": "C10",
   "status": "proved",
   "theorems": [
    "C10_compare_exchange"
   ],
   "note": ""
  },
  {
   "property": "C11",
   "status": "proved",
   "theorems": [
    "C11_cas_loop_atomic",
    "C11_cas_loop_terminates",
    "C11_atomicSub_ull"
   ],
   "note": ""
  },
  {
   "property": "C12",
   "status": "proved",
   "theorems": [
    "C12_bitset_is_bool_array"
   ],
   "note": ""
  },
  {
   "property": "C13",
   "status": "proved",
   "theorems": [
    "C13_counts_valid_bits_only",
    "C13_int_accumulator_wraps"
   ],
   "note": ""
  },
  {
   "property": "C14",
   "status": "proved",
   "theorems": [
    "C14_concurrent_bits",
    "C14_one_winner"
   ],
   "note": ""
  },
  {
   "property": "C15",
   "status": "proved",
   "theorems": [
    "C15_mutual_exclusion"
   ],
   "note": ""
  },
  {
   "property": "C16",
   "status": "proved",
   "theorems": [
    "C16_try_lock_all_or_nothing",
    "C16_concurrent"
   ],
   "note": ""
  },
  {
   "property": "C17",
   "status": "proved",
   "theorems": [
    "C17_valid_iff_all_free",
    "C17_lock_unlock_restores",
    "C17_valid_concurrent"
   ],
   "note": ""
  },
  {
   "property": "C18",
   "status": "proved",
   "theorems": [
    "C18_vector_is_bounded_list",
    "C18_push_back_alone",
    "C18_pop_back_alone"
   ],
   "note": ""
  },
  {
   "property": "C19",
   "status": "partial",
   "theorems": [
    "C19_vector_conserves_elements",
    "C19_vector_access_partial",
    "C19_vector_init_copy_race_refuted"
   ],
   "note": "Conservation and exclusive slot access proved for all programs and interleavings; the unlocked copy of _data[0] on entry to pop_back races with slot 0 (refuted part)."
  },
  {
   "property": "C20",
   "status": "proved",
   "theorems": [
    "C20_vector_calls_can_complete"
   ],
   "note": ""
  },
  {
   "property": "C21",
   "status": "proved",
   "theorems": [
    "C21_vector_valid_at_quiescence",
    "C21_vector_slots_at_quiescence"
   ],
   "note": ""
  },
  {
   "property": "C22",
   "status": "partial",
   "theorems": [
    "C22_what_rejections_leave_partial",
    "C22_what_rejections_leave_deque_partial",
    "C22_rejected_calls_partial",
    "C22_rejected_call_leaves_trace_refuted"
   ],
   "note": "A refused call changes nothing; a late rejection changes no element, bit or lock. At rest, after any history of a vector or deque, the counter is exactly the stored elements + rejected pushes - rejected pops, and valid() holds exactly if these are equally many (C22_what_rejections_leave_*); that the difference is 0 is refuted."
  },
  {
   "property": "C23",
   "status": "partial",
   "theorems": [
    "C23_same_kind_vector_partial",
    "C23_same_kind_deque_partial",
    "C23_lane_serialised_deadlock_refuted"
   ],
   "note": "Proved: kernels of one kind (all pushes or all pops), however grouped into wavefronts, never get stuck and end within ten accesses per call. Refuted in general: proved counterexample of a deadlock of one pushing and one popping wavefront."
  },
  {
   "property": "C24",
   "status": "partial",
   "theorems": [
    "C24_deque_is_bounded_deque_partial",
    "C24_at_refuted",
    "C24_large_capacity_refuted",
    "C24_push_alone",
    "C24_pop_alone"
   ],
   "note": "Proved for all call sequences except at(), and operator[]/back/device_range only for capacities up to 2^30; at() on a wrapped deque and capacity INT_MAX are proved counterexamples."
  },
  {
   "property": "C25",
   "status": "partial",
   "theorems": [
    "C25_deque_conserves_elements",
    "C25_deque_access_partial",
    "C25_deque_init_copy_race_refuted"
   ],
   "note": "Conservation and exclusive slot access proved; the unlocked copy of _data[0] on entry to the pops races (refuted part)."
  },
  {
   "property": "C26",
   "status": "proved",
   "theorems": [
    "C26_deque_pending_calls_can_complete",
    "C26_deque_programs_can_complete",
    "C26_deque_at_quiescence"
   ],
   "note": ""
  },
  {
   "property": "C27",
   "status": "partial",
   "theorems": [
    "C27_deque_blocks_after_overflow_refuted"
   ],
   "note": "The property is false of the code: proved counterexample in which a pop after an overflow never returns."
  },
  {
   "property": "C28",
   "status": "partial",
   "theorems": [
    "C28_deque_range_partial",
    "C28_large_capacity_refuted"
   ],
   "note": "Proved for capacities up to 2^30; for capacity INT_MAX the index arithmetic overflows (proved counterexample)."
  },
  {
   "property": "C29",
   "status": "proved",
   "theorems": [
    "C29_deque_clear_destroys_content"
   ],
   "note": ""
  },
  {
   "property": "C30",
   "status": "proved",
   "theorems": [
    "C30_queue_is_fifo",
    "C30_queue_returns_prefix_of_accepted",
    "C30_stack_is_lifo"
   ],
   "note": ""
  },
  {
   "property": "C31",
   "status": "proved",
   "theorems": [
    "C31_bucket_in_range",
    "C31_every_bucket_used",
    "C31_bucket"
   ],
   "note": ""
  },
  {
   "property": "C32",
   "status": "proved",
   "theorems": [
    "C32_unordered_is_finite_map"
   ],
   "note": ""
  },
  {
   "property": "C33",
   "status": "proved",
   "theorems": [
    "C33_loop_free_every_schedule",
    "C33_unordered_valid"
   ],
   "note": "C33_loop_free_every_schedule: the kernel of loop_free access by access, in every schedule, on every reachable container."
  },
  {
   "property": "C34",
   "status": "proved",
   "theorems": [
    "C34_every_schedule",
    "C34_every_schedule_ends",
    "C34_range_and_bucket_sizes"
   ],
   "note": "C34_every_schedule: the collecting kernel access by access, any number of threads and any distribution of the indices; C34_every_schedule_ends bounds the steps. Two calls of device_range() on one container at once share _range_indices_end: not covered, witness C34_two_calls_overlap."
  },
  {
   "property": "C35",
   "status": "proved",
   "theorems": [
    "C35_insert_rejected_when_no_room",
    "C35_size_at_most_max_size"
   ],
   "note": ""
  },
  {
   "property": "C36",
   "status": "partial",
   "theorems": [
    "C36_created_sizes_partial",
    "C36_few_collisions_partial",
    "C36_constant_hash_refuted",
    "C36_large_capacity_refuted",
    "C36_rounded_capacity_refuted"
   ],
   "note": "Proved: creation succeeds up to 2^30, power-of-two bucket count, max_size > n, and success of all insertions with fewer bucket collisions than excess entries. Refuted: all n distinct keys fit (constant hash), capacities beyond 2^30+64, fewer buckets than elements from float rounding beyond 2^24. The long double rounding in expected_collisions is not modelled."
  },
  {
   "property": "C37",
   "status": "partial",
   "theorems": [
    "C37_no_duplicate_key",
    "C37_entries_persist",
    "C37_inserted_is_stored",
    "C37_one_success_per_key",
    "C37_entries_origin",
    "C37_content_at_rest",
    "C37_stored_key_is_found",
    "C37_found_is_stored",
    "C37_accesses_defined",
    "C37_refusal_reasons",
    "C37_refused_only_for_equal_key",
    "C37_well_formed_at_rest_partial",
    "C37_overfull_race_refuted"
   ],
   "note": "Every clause except 'well formed' is proved in full, for all interleavings of any number of concurrent inserts and lookups started from a well-formed container: no two stored values with equal keys, stored values persist, a successful insert's value is stored, exactly one success per key, no values from nowhere, lookups sound and (for values stored at rest) complete, all accesses in bounds, inserts refused only for an equal key or for lack of excess entries. 'valid() holds again once every call has returned' is proved when the free excess entries are at least as many as the insert calls (C37_well_formed_at_rest_partial) and refuted otherwise (C37_overfull_race_refuted: two inserts race for the last excess entry, the excess list's size becomes -1, valid() is false and an excess entry is lost)."
  },
  {
   "property": "C38",
   "status": "partial",
   "theorems": [
    "C38_duplicate_key_refuted"
   ],
   "note": "Refuted: three threads, erase(1) || insert(9) || insert(9) store key 9 twice and both inserts report success (the list-end path never re-checks that the bucket head is still occupied). What holds for every mixture: kernels whose keys do not collide (C78); one inserting and one erasing thread (C68). A key that is stored and whose bucket no erase uses is never stored a second time: C80."
  },
  {
   "property": "C39",
   "status": "partial",
   "theorems": [
    "C39_missed_key_refuted"
   ],
   "note": "Refuted: a find standing on an entry that is erased and reused for another bucket follows the other bucket's list and returns end() for a key stored throughout. What holds for every mixture: kernels whose keys do not collide (C78). Holds for keys whose bucket no erase of the kernel uses: C80."
  },
  {
   "property": "C40",
   "status": "proved",
   "theorems": [
    "C40_clear"
   ],
   "note": ""
  },
  {
   "property": "C41",
   "status": "partial",
   "theorems": [
    "C41_integer_hash_injective",
    "C41_float_hash_partial",
    "C41_signed_zero_refuted",
    "C41_signed_zero_lost_refuted"
   ],
   "note": "Integer types and enums: hash equal iff keys equal. float/double: equal keys hash equally except +0.0 / -0.0, which compare equal and hash differently (proved refutation, and an unordered set that stores both). Missing: hash<long double> is not modelled."
  },
  {
   "property": "C42",
   "status": "proved",
   "theorems": [
    "C42_counts_match_history",
    "C42_rejected_calls_change_nothing",
    "C42_counts_with_threads"
   ],
   "note": ""
  },
  {
   "property": "C43",
   "status": "partial",
   "theorems": [
    "C43_sizes_and_types_partial",
    "C43_last_registration_refuted"
   ],
   "note": "Proved for pointers registered for at most one memory type; refuted: a pointer registered for device and host is reported with the device registration, and re-registration is ignored."
  },
  {
   "property": "C44",
   "status": "proved",
   "theorems": [
    "C44_range_check_exact"
   ],
   "note": ""
  },
  {
   "property": "C45",
   "status": "partial",
   "theorems": [
    "C45_checked_copies_partial",
    "C45_negative_size_refuted",
    "C45_overlap_refuted"
   ],
   "note": "Proved for non-negative byte counts and non-overlapping ranges; refuted: the range check accepts negative byte counts and overlapping ranges, which are undefined in memcpy."
  },
  {
   "property": "C46",
   "status": "partial",
   "theorems": [
    "C46_sequential_partial",
    "C46_owned_blocks_partial",
    "C46_concurrent_refuted"
   ],
   "note": "Proved sequentially, and for threads that free only blocks they own; refuted for two threads deallocating the same block (check and deregistration are separate critical sections)."
  },
  {
   "property": "C47",
   "status": "partial",
   "theorems": [
    "C47_first_failure_partial",
    "C47_failure_counted_refuted",
    "C47_never_balances_refuted",
    "C47_second_failure_refuted",
    "C47_null_range_refuted"
   ],
   "note": "The first failure returns nullptr and changes no block, but it is counted as an allocation and registers nullptr forever (refuted part)."
  },
  {
   "property": "C48",
   "status": "proved",
   "theorems": [
    "C48_create_device",
    "C48_create_host",
    "C48_create_nothing",
    "C48_round_trip",
    "C48_destroy_device",
    "C48_destroy_host",
    "C48_create_destroy"
   ],
   "note": ""
  },
  {
   "property": "C49",
   "status": "proved",
   "theorems": [
    "C49_fill_schedule_independent",
    "C49_copy_schedule_independent",
    "C49_iota_schedule_independent",
    "C49_uninitialized_fill_schedule_independent",
    "C49_uninitialized_copy_schedule_independent",
    "C49_destroy_schedule_independent"
   ],
   "note": ""
  },
  {
   "property": "C50",
   "status": "proved",
   "theorems": [
    "C50_transform_reduce_order_independent",
    "C50_transform_reduce_hip"
   ],
   "note": ""
  },
  {
   "property": "C51",
   "status": "proved",
   "theorems": [
    "C51_min",
    "C51_max",
    "C51_clamp"
   ],
   "note": ""
  },
  {
   "property": "C52",
   "status": "proved",
   "theorems": [
    "C52_each_active_lane_once",
    "C52_no_other_lane"
   ],
   "note": ""
  },
  {
   "property": "C53",
   "status": "partial",
   "theorems": [
    "C53_deque_lifetimes_partial",
    "C53_deque_pop_refuted",
    "C53_unordered_lifetimes",
    "C53_vector_lifetimes_partial",
    "C53_vector_pop_back_refuted"
   ],
   "note": "Slot lifetimes proved for vector, deque and the unordered containers; the result object of the pop operations violates the property (proved counterexample)."
  },
  {
   "property": "C54",
   "status": "proved",
   "theorems": [
    "C54_div_up_least",
    "C54_blocks_cover"
   ],
   "note": ""
  },
  {
   "property": "C55",
   "status": "proved",
   "theorems": [
    "C55_erase_keeps_others",
    "C55_freed_entry_reused"
   ],
   "note": ""
  },
  {
   "property": "C56",
   "status": "proved",
   "theorems": [
    "C56_integer_limits"
   ],
   "note": ""
  },
  {
   "property": "C57",
   "status": "proved",
   "theorems": [
    "C57_order_of_assignments",
    "C57_back_inserter_vector",
    "C57_inserter_deque",
    "C57_inserter_unordered"
   ],
   "note": ""
  },
  {
   "property": "C58",
   "status": "partial",
   "theorems": [
    "C58_default_order_orders_everything_partial",
    "C58_acquire_load_refuted",
    "C58_release_store_refuted"
   ],
   "note": "Proved for seq_cst (default) and acq_rel RMW; refuted for explicit acquire loads and release stores, whose fence is on the wrong side of the access."
  },
  {
   "property": "C59",
   "status": "proved",
   "theorems": [
    "C59_operator_results"
   ],
   "note": ""
  },
  {
   "property": "C60",
   "status": "proved",
   "theorems": [
    "C60_blocks_of_the_live_objects",
    "C60_no_leak",
    "C60_other_objects_untouched"
   ],
   "note": "All kinds of objects, every history inside the contracts, every allocator that returns fresh disjoint blocks and does not fail (failure: C47), every order of the parallel fills, device-compiled or not."
  },
  {
   "property": "C61",
   "status": "partial",
   "theorems": [
    "C61_destroy_again_partial",
    "C61_unordered_destroyed_twice_refuted"
   ],
   "note": "Proved for atomics, bitsets, mutex arrays, vectors, deques, queues, stacks and arrays. Refuted for unordered_map/unordered_set: destroyDeviceObject leaves _values, _offsets and _range_indices as they are, so a second destroy frees the memory of a container that got those addresses meanwhile (C61_unordered_destroyed_twice_refuted)."
  },
  {
   "property": "C62",
   "status": "proved",
   "theorems": [
    "C62_present_at_start",
    "C62_presence_only_ends",
    "C62_presence_ends_by_erase",
    "C62_found_was_present",
    "C62_gone_after",
    "C62_one_success_per_key",
    "C62_unerased_key_is_found",
    "C62_entries_unchanged",
    "C62_accesses_defined",
    "C62_at_rest"
   ],
   "note": "Value types with trivial destructors (allocator_traits::destroy has no effect); for others see C64. Any history of phases before the run (C63)."
  },
  {
   "property": "C63",
   "status": "proved",
   "theorems": [
    "C63_history_explained",
    "C63_next_calls_defined"
   ],
   "note": "Insert kernels have at most as many insert calls as there are free excess entries (without that: C37_overfull_race_refuted); kernels that mix inserts and erases are excluded (C38, C39 refute them); trivial destructors."
  },
  {
   "property": "C64",
   "status": "partial",
   "theorems": [
    "C64_destroyed_value_read_refuted"
   ],
   "note": "Refuted: find saw the entry occupied, erase destroyed the value, find reads it (C64_destroyed_value_read_refuted)."
  },
  {
   "property": "C65",
   "status": "proved",
   "theorems": [
    "C65_one_eraser_can_complete",
    "C65_one_eraser_completes_alone",
    "C65_one_eraser_next_kernel",
    "C65_inserts_can_complete",
    "C65_erases_can_complete",
    "C65_insert_or_find_completes_alone",
    "C65_erase_or_find_completes_alone",
    "C65_next_kernel_can_complete"
   ],
   "note": "Existence of a completing continuation from every reachable state, and completion of a thread that runs alone from any point of its call. Not claimed: completion under every fair schedule (retry loops can livelock in principle, and under lock-step warps they do: C23). Kernels with one erasing and any number of inserting threads, after any number of such kernels: C65_one_eraser_*. Erase kernels: trivial destructors (C64)."
  },
  {
   "property": "C66",
   "status": "proved",
   "theorems": [
    "C66_insert_range",
    "C66_erase_range",
    "C66_set_insert_range_is_union",
    "C66_range_calls_can_complete",
    "C66_range_calls_continue_history"
   ],
   "note": "insert: ranges no longer than the number of free excess entries (see C37_overfull_race_refuted); erase: trivial destructors (C64). Completion of the calls: existence of a completing schedule (C65)."
  },
  {
   "property": "C67",
   "status": "partial",
   "theorems": [
    "C67_inserted_key_lost_refuted",
    "C67_access_out_of_bounds_refuted",
    "C67_one_eraser_accesses_defined_partial",
    "C67_one_eraser_conserves_partial"
   ],
   "note": "Refuted twice. A key whose insert reported success is not found afterwards although nobody erased it (two inserting threads, one erasing thread); an access outside the arrays (one inserting thread, two erasing threads, inserts and erases even in different buckets). Both by excess entries that are erased and reused in another bucket while a call re-checks a position under its locks. Proved: with at most one erasing thread per kernel (any number of inserting and searching threads, any number of such kernels after any history) every access is inside the arrays and on a constructed value, and at rest the stored values plus the erased ones are exactly the initial plus the inserted ones and size() counts them. Further: kernels of one kind (C37, C62), phases of them (C63), and one inserting plus one erasing thread (C68). Any number of inserting and erasing threads: C78, if the keys do not collide. Conservation (not memory safety, not findability) for any number of inserting and erasing threads: C79."
  },
  {
   "property": "C68",
   "status": "proved",
   "theorems": [
    "C68_all_runs",
    "C68_accesses_defined",
    "C68_linearizable",
    "C68_at_rest"
   ],
   "note": "Value types with a trivial destructor (see C64). The order is existential, with all states of the run: calls returned at a state are before the cut, calls not begun after it. Lookups: C69."
  },
  {
   "property": "C69",
   "status": "partial",
   "theorems": [
    "C69_stored_key_missed_refuted"
   ],
   "note": "C69_stored_key_missed_refuted: one thread inserts, one erases, one looks up a key that can be reached in every state of the run, and the lookup returns end(): it stands on an entry that is erased and reused at the end of another bucket's list. Lookups next to inserts only: C37; next to erases only: C62. Next to both: C78, if the keys do not collide. Holds next to any number of inserting and erasing threads for keys whose bucket the erases do not use (or that are stored at the index of their bucket, if they are not erased themselves): C80."
  },
  {
   "property": "C70",
   "status": "proved",
   "theorems": [
    "C70_one_owner",
    "C70_no_leak",
    "C70_objects_survive_moves",
    "C70_self_move",
    "C70_bool_and_dereference"
   ],
   "note": ""
  },
  {
   "property": "C71",
   "status": "proved",
   "theorems": [
    "C71_array_iteration",
    "C71_covers_the_array",
    "C71_other_pointers_are_empty",
    "C71_iteration_is_safe",
    "C71_counted_range",
    "C71_transformed_range",
    "C71_indexed_range"
   ],
   "note": ""
  },
  {
   "property": "C72",
   "status": "proved",
   "theorems": [
    "C72_transparent_lookup",
    "C72_stands_for_key"
   ],
   "note": ""
  },
  {
   "property": "C73",
   "status": "partial",
   "theorems": [
    "C73_fifo_partial",
    "C73_one_popping_thread",
    "C73_at_rest",
    "C73_one_producer_one_consumer",
    "C73_lapped_ring_refuted",
    "C73_refused_only_if_empty_refuted",
    "C73_two_producers_refuted"
   ],
   "note": "Proved: total pushes within the capacity (any threads, any schedule), exact if one thread pops; one producer and one consumer without any bound, exact and bounded. Refuted: more pushes than slots with several poppers (C73_lapped_ring_refuted) or with two producers and one popper (C73_two_producers_refuted), and refusals only if empty with several popping threads (C73_refused_only_if_empty_refuted)."
  },
  {
   "property": "C74",
   "status": "partial",
   "theorems": [
    "C74_vector_pushes_partial",
    "C74_vector_pops_partial",
    "C74_stack_pushes_partial",
    "C74_stack_pops_partial",
    "C74_vector_one_pusher_one_popper",
    "C74_stack_one_push_one_pop_refuted",
    "C74_vector_order_refuted",
    "C74_stack_order_refuted"
   ],
   "note": "Proved: kernels that only push or only pop, for vector and stack, exact; one pusher and one popper on a vector, exact, without any bound. Refuted: three threads on a vector (C74_vector_order_refuted) or stack (C74_stack_order_refuted); a single push and a single pop on a full stack (C74_stack_one_push_one_pop_refuted)."
  },
  {
   "property": "C75",
   "status": "proved",
   "theorems": [
    "C75_vector_one_kind_completes",
    "C75_deque_one_kind_completes"
   ],
   "note": "Proved for vector and deque (queue and stack are deques), any schedule; 32-bit size counter by C76."
  },
  {
   "property": "C76",
   "status": "proved",
   "theorems": [
    "C76_vector_counter",
    "C76_deque_counter",
    "C76_unordered_counters",
    "C76_bound_is_needed"
   ],
   "note": "Runs of the 32-bit and the unbounded machines are equal, schedule by schedule; C76_bound_is_needed shows the wrap at capacity INT_MAX with two threads. Offsets of the unordered containers are not wrapped (they are differences of valid positions)."
  },
  {
   "property": "C77",
   "status": "partial",
   "theorems": [
    "C77_mixtures_partial",
    "C77_inserts_lookups_partial",
    "C77_erases_lookups_partial",
    "C77_insert_find_race_refuted",
    "C77_erase_find_race_refuted",
    "C77_value_race_refuted",
    "C77_excess_race_refuted"
   ],
   "note": "Partial: in kernels of inserts and lookups (C37) and of erases and lookups (C62) values and the free list are never raced on and an offset only by the one write that links a complete entry or unlinks one; that race exists (C77_insert_find_race_refuted, C77_erase_find_race_refuted), and mixed kernels also race on values and the free list. C77_mixtures_partial: any mixture of inserts, erases and lookups; it leaves the offsets open, where threads do race."
  },
  {
   "property": "C78",
   "status": "proved",
   "theorems": [
    "C78_accesses_defined",
    "C78_linearizable",
    "C78_no_duplicate_key",
    "C78_lookup_results",
    "C78_at_rest",
    "C78_can_complete",
    "C78_completes_alone",
    "C78_next_kernel"
   ],
   "note": "Value types with a trivial destructor (otherwise C64), at least one unused excess entry (otherwise insert and erase may be refused: C36/C37). The condition that an erased key is inserted by one thread only is needed by the proof: without it an insert that saw the head occupied can append an excess entry behind an emptied head, so collision lists appear without collisions (C38 shows what follows)."
  },
  {
   "property": "C79",
   "status": "proved",
   "theorems": [
    "C79_mixed_kernels_conserve",
    "C79_conserved_at_every_point",
    "C79_size_in_range"
   ],
   "note": "For value types with and without a trivial destructor. A thread whose access leaves the arrays (C67) or reads a destroyed value (C64) has no further step in the model, so a kernel in which that happens never comes to rest; the statements about every point of a kernel still hold up to there. Whether the stored values can be found is another question (C67, C68, C78). C81 adds the order of the effects and what the reports mean."
  },
  {
   "property": "C80",
   "status": "proved",
   "theorems": [
    "C80_key_stays",
    "C80_calls_see_the_key",
    "C80_lookup_accesses_defined",
    "C80_lookup_wait_free"
   ],
   "note": "C39 and C69 show that the condition on the erases is needed: an erase in the bucket of the key can make a lookup of the key return end(). The container may become inconsistent elsewhere (C67) without any effect on the key."
  },
  {
   "property": "C81",
   "status": "proved",
   "theorems": [
    "C81_effects_in_one_order",
    "C81_found_was_there",
    "C81_refused_for_a_reason"
   ],
   "note": "For value types with and without a trivial destructor. Nothing is claimed about lookups that return end() and erases that return 0 (C69, C80). C81_ex shows why a lookup may see a value that is just being stored: it finds the key, and a second lookup by the same thread does not, although nobody erases it."
  },
  {
   "property": "C82",
   "status": "partial",
   "theorems": [
    "C82_results_after_overflow_partial",
    "C82_clear_of_empty_refuted"
   ],
   "note": "Extends C22 (what rejected calls leave behind) to every later sequence of calls. Partial: clear() of a vector that stores nothing returns at once and leaves the counter wrong (C82_clear_of_empty_refuted). The counter has to fit an int (C76 tells when it does)."
  },
  {
   "property": "C83",
   "status": "partial",
   "theorems": [
    "C83_results_after_overflow_partial",
    "C83_balanced",
    "C83_push_hangs_refuted",
    "C83_pop_hangs_refuted",
    "C83_clear_forgets_elements_refuted"
   ],
   "note": "False in this form (four consequences proved as refutations); proved instead: exactly what every later sequence of calls does, in terms of the stored list and the number k by which the counter is off, including when a call waits forever or clear() destroys a dead object; and that nothing is wrong if as many pushes as pops were rejected. operator[], at(), back() and device_range() of a deque with k <> 0 are not described; clear() without the optimization is described for k >= 0."
  },
  {
   "property": "C84",
   "status": "proved",
   "theorems": [
    "C84_vector_history",
    "C84_calls_in_histories",
    "C84_kernels_in_histories"
   ],
   "note": "Kernels are observed when no call is running (they need not have run to the end of the programs). The counter has to fit an int at the end of every kernel (C76 for inside a kernel). The init-copy race of C19 is outside these theorems: element_access is the slot access, as in C19."
  },
  {
   "property": "C85",
   "status": "proved",
   "theorems": [
    "C85_deque_history",
    "C85_calls_in_histories",
    "C85_kernels_in_histories",
    "C85_balanced_histories"
   ],
   "note": "What later calls do once the counter is off is C83 (refuted there as a usability claim); here it is only part of the explanation (off_run). Phases of calls use the calls described in DDebtSpec.v (with an arbitrary counter: no operator[], at(), back(), device_range(), and clear() with the optimization only); balanced histories use all calls but operator[], at() and back() in the phases and all calls at the end. The counter has to fit an int at the end of every kernel."
  },
  {
   "property": "C86",
   "status": "proved",
   "theorems": [
    "C86_vector_size",
    "C86_deque_size",
    "C86_unordered_size"
   ],
   "note": "One call of size() is one atomic load (vector_detail.cuh, deque_detail.cuh, unordered_base_detail.cuh), so its value at a moment is a function of the state at the moment; empty() and full() are comparisons of that value. For vectors and deques the rejected calls that changed the counter (C22) count as settled changes; C82/C83 say what they do later."
  },
  {
   "property": "C87",
   "status": "partial",
   "theorems": [
    "C87_create_constructs",
    "C87_each_element_once",
    "C87_trivial_destructors",
    "C87_destroyed_elements_refuted",
    "C87_destroyed_twice_refuted",
    "C87_copies_refuted"
   ],
   "note": "Refuted for code that is not device-compiled: createDeviceArray builds a host array, copies its bytes and destroys it, so the device array consists of destroyed objects, and destroyDeviceArray destroys them again (memory_detail.h 193-199, 239-245). Refuted for arrays made by the copy functions, which copy bytes. Both matter for types with a destructor only. The addresses, sizes and bytes of the arrays are C48's; failing allocations are C47's."
  },
  {
   "property": "C88",
   "status": "partial",
   "theorems": [
    "C88_exact",
    "C88_ends",
    "C88_no_race_partial",
    "C88_race_refuted"
   ],
   "note": "Refuted: freedom from data races on containers with an entry in two lists, the ones loop_free is there to find: the check of the flag (unordered_base_detail.cuh 282) is a plain read next to atomic additions. C88_no_race_partial: no race if the lists are separate. C88_exact and C88_ends hold for every array of links that stay inside (in the interleaving semantics, races included)."
  },
  {
   "property": "C89",
   "status": "partial",
   "theorems": [
    "C89_valid_certifies_partial",
    "C89_next_insert_refuted",
    "C89_intact_free_list",
    "C89_in_use"
   ],
   "note": "Refuted: 'the next insertions keep what is stored': valid() does not look at the positions in the list of free entries, so a container whose list offers an occupied entry is called valid and the next insertion overwrites a stored value (C89_next_insert_refuted). C89_valid_certifies_partial: everything else, for every content of the arrays. C89_intact_free_list: the list of free entries is the only thing missing - if it is intact (as C89_in_use shows for every container in use), every sequence of calls that follows behaves as a set of values with distinct keys and keeps valid() true."
  },
  {
   "property": "C90",
   "status": "partial",
   "theorems": [
    "C90_valid_decides_partial",
    "C90_count_refuted"
   ],
   "note": "Refuted: with an element counter out of range valid() violates the postcondition of size() (unordered_base_detail.cuh 1118-1119) instead of returning false (C90_count_refuted). C90_valid_decides_partial: everything else; occupied entries have to hold objects, as valid() calls the user's hash and equality on them."
  },
  {
   "property": "C91",
   "status": "partial",
   "theorems": [
    "C91_vector_valid_partial",
    "C91_gap_refuted",
    "C91_in_use",
    "C91_in_histories"
   ],
   "note": "Refuted: valid() does not look for gaps; with an element behind an empty slot it returns true, pop_back() waits for ever and device_range() reads the empty slot (C91_gap_refuted). C91_vector_valid_partial: everything else, for every content of the arrays without a gap (C91_in_use, C91_in_histories: every vector after createDeviceObject and any calls, or any history of kernels and calls, is one)."
  },
  {
   "property": "C92",
   "status": "partial",
   "theorems": [
    "C92_deque_valid_partial",
    "C92_begin_refuted",
    "C92_end_refuted",
    "C92_in_use",
    "C92_in_histories"
   ],
   "note": "Refuted: valid() looks neither at begin and end nor at the order of the slots: front() reads an empty slot, pop_front() or push_back() wait for ever on a deque it calls valid (C92_begin_refuted, C92_end_refuted). C92_deque_valid_partial: everything else, for every content of the arrays with consecutive elements between begin and end (C92_in_use: every deque after createDeviceObject and calls within the contract is one; C92_in_histories: so is every deque on which valid() returns true after any history of kernels and calls - so there valid() tells whether it is a bounded list again)."
  }
 ]
}