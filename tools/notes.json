{
 "C09": {
  "note": "Linearizable for all programs on the CUDA/HIP backends. On OpenMP proved when one cell is not used with both omp-critical and omp-atomic read-modify-writes; refuted when they are mixed (fetch_max vs fetch_add). The order respects time (C09_*_order_in_time)."
 },
 "C58": {
  "note": "Proved for seq_cst (default) and acq_rel RMW; refuted for explicit acquire loads and release stores, whose fence is on the wrong side of the access."
 },
 "C19": {
  "note": "Conservation and exclusive slot access proved for all programs and interleavings; the unlocked copy of _data[0] on entry to pop_back races with slot 0 (refuted part)."
 },
 "C22": {
  "note": "A refused call changes nothing; a late rejection changes no element, bit or lock. At rest, after any history of a vector or deque, the counter is exactly the stored elements + rejected pushes - rejected pops, and valid() holds exactly if these are equally many (C22_what_rejections_leave_*); that the difference is 0 is refuted."
 },
 "C23": {
  "note": "Proved: kernels of one kind (all pushes or all pops), however grouped into wavefronts, never get stuck and end within ten accesses per call. Refuted in general: proved counterexample of a deadlock of one pushing and one popping wavefront."
 },
 "C24": {
  "note": "Proved for all call sequences except at(), and operator[]/back/device_range only for capacities up to 2^30; at() on a wrapped deque and capacity INT_MAX are proved counterexamples."
 },
 "C25": {
  "note": "Conservation and exclusive slot access proved; the unlocked copy of _data[0] on entry to the pops races (refuted part)."
 },
 "C27": {
  "note": "The property is false of the code: proved counterexample in which a pop after an overflow never returns."
 },
 "C28": {
  "note": "Proved for capacities up to 2^30; for capacity INT_MAX the index arithmetic overflows (proved counterexample)."
 },
 "C53": {
  "note": "Slot lifetimes proved for vector, deque and the unordered containers; the result object of the pop operations violates the property (proved counterexample)."
 },
 "C36": {
  "note": "Proved: creation succeeds up to 2^30, power-of-two bucket count, max_size > n, and success of all insertions with fewer bucket collisions than excess entries. Refuted: all n distinct keys fit (constant hash), capacities beyond 2^30+64, fewer buckets than elements from float rounding beyond 2^24. The long double rounding in expected_collisions is not modelled."
 },
 "C43": {
  "note": "Proved for pointers registered for at most one memory type; refuted: a pointer registered for device and host is reported with the device registration, and re-registration is ignored."
 },
 "C45": {
  "note": "Proved for non-negative byte counts and non-overlapping ranges; refuted: the range check accepts negative byte counts and overlapping ranges, which are undefined in memcpy."
 },
 "C46": {
  "note": "Proved sequentially, and for threads that free only blocks they own; refuted for two threads deallocating the same block (check and deregistration are separate critical sections)."
 },
 "C47": {
  "note": "The first failure returns nullptr and changes no block, but it is counted as an allocation and registers nullptr forever (refuted part)."
 },
 "C41": {
  "note": "Integer types and enums: hash equal iff keys equal. float/double: equal keys hash equally except +0.0 / -0.0, which compare equal and hash differently (proved refutation, and an unordered set that stores both). Missing: hash<long double> is not modelled."
 },
 "C37": {
  "note": "Every clause except 'well formed' is proved in full, for all interleavings of any number of concurrent inserts and lookups started from a well-formed container: no two stored values with equal keys, stored values persist, a successful insert's value is stored, exactly one success per key, no values from nowhere, lookups sound and (for values stored at rest) complete, all accesses in bounds, inserts refused only for an equal key or for lack of excess entries. 'valid() holds again once every call has returned' is proved when the free excess entries are at least as many as the insert calls (C37_well_formed_at_rest_partial) and refuted otherwise (C37_overfull_race_refuted: two inserts race for the last excess entry, the excess list's size becomes -1, valid() is false and an excess entry is lost)."
 },
 "C38": {
  "note": "Refuted: three threads, erase(1) || insert(9) || insert(9) store key 9 twice and both inserts report success (the list-end path never re-checks that the bucket head is still occupied). What holds for every mixture: kernels whose keys do not collide (C78); one inserting and one erasing thread (C68). A key that is stored and whose bucket no erase uses is never stored a second time: C80."
 },
 "C39": {
  "note": "Refuted: a find standing on an entry that is erased and reused for another bucket follows the other bucket's list and returns end() for a key stored throughout. What holds for every mixture: kernels whose keys do not collide (C78). Holds for keys whose bucket no erase of the kernel uses: C80."
 },
 "C60": {
  "note": "All kinds of objects, every history inside the contracts, every allocator that returns fresh disjoint blocks and does not fail (failure: C47), every order of the parallel fills, device-compiled or not."
 },
 "C61": {
  "note": "Proved for atomics, bitsets, mutex arrays, vectors, deques, queues, stacks and arrays. Refuted for unordered_map/unordered_set: destroyDeviceObject leaves _values, _offsets and _range_indices as they are, so a second destroy frees the memory of a container that got those addresses meanwhile (C61_unordered_destroyed_twice_refuted)."
 },
 "C62": {
  "note": "Value types with trivial destructors (allocator_traits::destroy has no effect); for others see C64. Any history of phases before the run (C63)."
 },
 "C63": {
  "note": "Insert kernels have at most as many insert calls as there are free excess entries (without that: C37_overfull_race_refuted); kernels that mix inserts and erases are excluded (C38, C39 refute them); trivial destructors."
 },
 "C64": {
  "note": "Refuted: find saw the entry occupied, erase destroyed the value, find reads it (C64_destroyed_value_read_refuted)."
 },
 "C65": {
  "note": "Existence of a completing continuation from every reachable state, and completion of a thread that runs alone from any point of its call. Not claimed: completion under every fair schedule (retry loops can livelock in principle, and under lock-step warps they do: C23). Kernels with one erasing and any number of inserting threads, after any number of such kernels: C65_one_eraser_*. Erase kernels: trivial destructors (C64)."
 },
 "C66": {
  "note": "insert: ranges no longer than the number of free excess entries (see C37_overfull_race_refuted); erase: trivial destructors (C64). Completion of the calls: existence of a completing schedule (C65)."
 },
 "C67": {
  "note": "Refuted twice. A key whose insert reported success is not found afterwards although nobody erased it (two inserting threads, one erasing thread); an access outside the arrays (one inserting thread, two erasing threads, inserts and erases even in different buckets). Both by excess entries that are erased and reused in another bucket while a call re-checks a position under its locks. Proved: with at most one erasing thread per kernel (any number of inserting and searching threads, any number of such kernels after any history) every access is inside the arrays and on a constructed value, and at rest the stored values plus the erased ones are exactly the initial plus the inserted ones and size() counts them. Further: kernels of one kind (C37, C62), phases of them (C63), and one inserting plus one erasing thread (C68). Any number of inserting and erasing threads: C78, if the keys do not collide. Conservation (not memory safety, not findability) for any number of inserting and erasing threads: C79."
 },
 "C69": {
  "note": "C69_stored_key_missed_refuted: one thread inserts, one erases, one looks up a key that can be reached in every state of the run, and the lookup returns end(): it stands on an entry that is erased and reused at the end of another bucket's list. Lookups next to inserts only: C37; next to erases only: C62. Next to both: C78, if the keys do not collide. Holds next to any number of inserting and erasing threads for keys whose bucket the erases do not use (or that are stored at the index of their bucket, if they are not erased themselves): C80."
 },
 "C68": {
  "note": "Value types with a trivial destructor (see C64). The order is existential, with all states of the run: calls returned at a state are before the cut, calls not begun after it. Lookups: C69."
 },
 "C73": {
  "note": "Proved: total pushes within the capacity (any threads, any schedule), exact if one thread pops; one producer and one consumer without any bound, exact and bounded. Refuted: more pushes than slots with several poppers (C73_lapped_ring_refuted) or with two producers and one popper (C73_two_producers_refuted), and refusals only if empty with several popping threads (C73_refused_only_if_empty_refuted)."
 },
 "C74": {
  "note": "Proved: kernels that only push or only pop, for vector and stack, exact; one pusher and one popper on a vector, exact, without any bound. Refuted: three threads on a vector (C74_vector_order_refuted) or stack (C74_stack_order_refuted); a single push and a single pop on a full stack (C74_stack_one_push_one_pop_refuted)."
 },
 "C75": {
  "note": "Proved for vector and deque (queue and stack are deques), any schedule; 32-bit size counter by C76."
 },
 "C76": {
  "note": "Runs of the 32-bit and the unbounded machines are equal, schedule by schedule; C76_bound_is_needed shows the wrap at capacity INT_MAX with two threads. Offsets of the unordered containers are not wrapped (they are differences of valid positions)."
 },
 "C77": {
  "note": "Partial: in kernels of inserts and lookups (C37) and of erases and lookups (C62) values and the free list are never raced on and an offset only by the one write that links a complete entry or unlinks one; that race exists (C77_insert_find_race_refuted, C77_erase_find_race_refuted), and mixed kernels also race on values and the free list. C77_mixtures_partial: any mixture of inserts, erases and lookups; it leaves the offsets open, where threads do race."
 },
 "C78": {
  "note": "Value types with a trivial destructor (otherwise C64), at least one unused excess entry (otherwise insert and erase may be refused: C36/C37). The condition that an erased key is inserted by one thread only is needed by the proof: without it an insert that saw the head occupied can append an excess entry behind an emptied head, so collision lists appear without collisions (C38 shows what follows)."
 },
 "C79": {
  "note": "For value types with and without a trivial destructor. A thread whose access leaves the arrays (C67) or reads a destroyed value (C64) has no further step in the model, so a kernel in which that happens never comes to rest; the statements about every point of a kernel still hold up to there. Whether the stored values can be found is another question (C67, C68, C78). C81 adds the order of the effects and what the reports mean."
 },
 "C80": {
  "note": "C39 and C69 show that the condition on the erases is needed: an erase in the bucket of the key can make a lookup of the key return end(). The container may become inconsistent elsewhere (C67) without any effect on the key."
 },
 "C81": {
  "note": "For value types with and without a trivial destructor. Nothing is claimed about lookups that return end() and erases that return 0 (C69, C80). C81_ex shows why a lookup may see a value that is just being stored: it finds the key, and a second lookup by the same thread does not, although nobody erases it."
 },
 "C82": {
  "note": "Extends C22 (what rejected calls leave behind) to every later sequence of calls. Partial: clear() of a vector that stores nothing returns at once and leaves the counter wrong (C82_clear_of_empty_refuted). The counter has to fit an int (C76 tells when it does)."
 },
 "C83": {
  "note": "False in this form (four consequences proved as refutations); proved instead: exactly what every later sequence of calls does, in terms of the stored list and the number k by which the counter is off, including when a call waits forever or clear() destroys a dead object; and that nothing is wrong if as many pushes as pops were rejected. operator[], at(), back() and device_range() of a deque with k <> 0 are not described; clear() without the optimization is described for k >= 0."
 },
 "C84": {
  "note": "Kernels are observed when no call is running (they need not have run to the end of the programs). The counter has to fit an int at the end of every kernel (C76 for inside a kernel). The init-copy race of C19 is outside these theorems: element_access is the slot access, as in C19."
 },
 "C85": {
  "note": "What later calls do once the counter is off is C83 (refuted there as a usability claim); here it is only part of the explanation (off_run). Phases of calls use the calls described in DDebtSpec.v (with an arbitrary counter: no operator[], at(), back(), device_range(), and clear() with the optimization only); balanced histories use all calls but operator[], at() and back() in the phases and all calls at the end. The counter has to fit an int at the end of every kernel."
 },
 "C86": {
  "note": "One call of size() is one atomic load (vector_detail.cuh, deque_detail.cuh, unordered_base_detail.cuh), so its value at a moment is a function of the state at the moment; empty() and full() are comparisons of that value. For vectors and deques the rejected calls that changed the counter (C22) count as settled changes; C82/C83 say what they do later."
 },
 "C87": {
  "note": "Refuted for code that is not device-compiled: createDeviceArray builds a host array, copies its bytes and destroys it, so the device array consists of destroyed objects, and destroyDeviceArray destroys them again (memory_detail.h 193-199, 239-245). Refuted for arrays made by the copy functions, which copy bytes. Both matter for types with a destructor only. The addresses, sizes and bytes of the arrays are C48's; failing allocations are C47's."
 },
 "C34": {
  "note": "C34_every_schedule: the collecting kernel access by access, any number of threads and any distribution of the indices; C34_every_schedule_ends bounds the steps. Two calls of device_range() on one container at once share _range_indices_end: not covered, witness C34_two_calls_overlap."
 },
 "C88": {
  "note": "Refuted: freedom from data races on containers with an entry in two lists, the ones loop_free is there to find: the check of the flag (unordered_base_detail.cuh 282) is a plain read next to atomic additions. C88_no_race_partial: no race if the lists are separate. C88_exact and C88_ends hold for every array of links that stay inside (in the interleaving semantics, races included)."
 },
 "C33": {
  "note": "C33_loop_free_every_schedule: the kernel of loop_free access by access, in every schedule, on every reachable container."
 },
 "C89": {
  "note": "Refuted: 'the next insertions keep what is stored': valid() does not look at the positions in the list of free entries, so a container whose list offers an occupied entry is called valid and the next insertion overwrites a stored value (C89_next_insert_refuted). C89_valid_certifies_partial: everything else, for every content of the arrays. C89_intact_free_list: the list of free entries is the only thing missing - if it is intact (as C89_in_use shows for every container in use), every sequence of calls that follows behaves as a set of values with distinct keys and keeps valid() true."
 },
 "C90": {
  "note": "Refuted: with an element counter out of range valid() violates the postcondition of size() (unordered_base_detail.cuh 1118-1119) instead of returning false (C90_count_refuted). C90_valid_decides_partial: everything else; occupied entries have to hold objects, as valid() calls the user's hash and equality on them."
 },
 "C91": {
  "note": "Refuted: valid() does not look for gaps; with an element behind an empty slot it returns true, pop_back() waits for ever and device_range() reads the empty slot (C91_gap_refuted). C91_vector_valid_partial: everything else, for every content of the arrays without a gap (C91_in_use, C91_in_histories: every vector after createDeviceObject and any calls, or any history of kernels and calls, is one)."
 },
 "C92": {
  "note": "Refuted: valid() looks neither at begin and end nor at the order of the slots: front() reads an empty slot, pop_front() or push_back() wait for ever on a deque it calls valid (C92_begin_refuted, C92_end_refuted). C92_deque_valid_partial: everything else, for every content of the arrays with consecutive elements between begin and end (C92_in_use: every deque after createDeviceObject and calls within the contract is one; C92_in_histories: so is every deque on which valid() returns true after any history of kernels and calls - so there valid() tells whether it is a bounded list again)."
 }
}
