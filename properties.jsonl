{"id": "C01", "title": "has_single_bit recognises exactly the powers of two", "statement": "has_single_bit(x) is true if and only if x = 2^k for some k below the width of the type.", "quantifier": "every unsigned width and every value of that width", "why_tests_cant": "2^64 inputs (and every width) cannot be enumerated", "anchors": ["src/stdgpu/impl/bit_detail.h:has_single_bit"]}
{"id": "C02", "title": "bit_ceil is the least power of two not below its argument", "statement": "bit_ceil(x) is the smallest power of two >= x whenever that power is representable, and 0 when it is not.", "quantifier": "every unsigned width and value", "why_tests_cant": "2^64 inputs (and every width) cannot be enumerated", "anchors": ["src/stdgpu/impl/bit_detail.h:bit_ceil"]}
{"id": "C03", "title": "bit_floor is the greatest power of two not above its argument", "statement": "bit_floor(0) = 0 and for x > 0 bit_floor(x) is the largest power of two <= x.", "quantifier": "every unsigned width and value", "why_tests_cant": "2^64 inputs (and every width) cannot be enumerated", "anchors": ["src/stdgpu/impl/bit_detail.h:bit_floor"]}
{"id": "C04", "title": "bit_mod is the modulus for power-of-two dividers", "statement": "For every divider d accepted by has_single_bit, bit_mod(x,d) = x mod d.", "quantifier": "every width, value and power-of-two divider", "why_tests_cant": "2^64 inputs (and every width) cannot be enumerated", "anchors": ["src/stdgpu/impl/bit_detail.h:bit_mod"]}
{"id": "C05", "title": "bit_width is the minimal number of bits", "statement": "bit_width(x) is the least w with x < 2^w (0 for 0).", "quantifier": "every width and value", "why_tests_cant": "2^64 inputs (and every width) cannot be enumerated", "anchors": ["src/stdgpu/impl/bit_detail.h:bit_width"]}
{"id": "C06", "title": "popcount counts the one bits", "statement": "popcount(x) equals the number of positions below the width whose bit is 1.", "quantifier": "every width and value", "why_tests_cant": "2^64 inputs (and every width) cannot be enumerated", "anchors": ["src/stdgpu/impl/bit_detail.h:popcount"]}
{"id": "C07", "title": "bit_cast is a lossless byte copy", "statement": "bit_cast<From>(bit_cast<To>(x)) = x for every pair of equally sized types, and distinct byte patterns stay distinct.", "quantifier": "every object representation of every size", "why_tests_cant": "2^64 inputs (and every width) cannot be enumerated", "anchors": ["src/stdgpu/impl/bit_detail.h:bit_cast"]}
{"id": "C08", "title": "fetch_inc_mod / fetch_dec_mod step around the ring", "statement": "For m > 0 and a stored value v < m, fetch_inc_mod(m) returns v and stores (v+1) mod m and fetch_dec_mod(m) returns v and stores (v-1) mod m; the stored value never leaves [0,m) and one operation undoes the other.", "quantifier": "every modulus, value and sequence of operations", "why_tests_cant": "2^64 inputs (and every width) cannot be enumerated", "anchors": ["src/stdgpu/impl/atomic_detail.cuh:atomic_ref::fetch_inc_mod", "src/stdgpu/openmp/impl/atomic_detail.h:atomic_fetch_inc_mod", "src/stdgpu/openmp/impl/atomic_detail.h:atomic_fetch_dec_mod"]}
{"id": "C09", "title": "atomic read-modify-write operations are linearizable", "statement": "For every number of threads, every program of fetch_add/sub/and/or/xor/min/max/inc_mod/dec_mod/exchange/compare_exchange/load/store operations and every interleaving, the values returned and the final value are those of executing the operations one after another in the order in which they took effect; in particular k concurrent increments of a counter return k distinct consecutive tickets and add exactly k.", "quantifier": "all thread counts, programs and interleavings", "why_tests_cant": "the number of interleavings is unbounded; a test run only ever observes one schedule", "anchors": ["src/stdgpu/impl/atomic_detail.cuh", "src/stdgpu/openmp/impl/atomic_detail.h"]}
{"id": "C10", "title": "compare_exchange tells the truth", "statement": "compare_exchange_strong(expected,desired) returns true exactly when the stored value equalled expected, in which case desired is stored and expected is unchanged; otherwise nothing is stored and expected receives the stored value.", "quantifier": "all values", "why_tests_cant": "2^64 inputs (and every width) cannot be enumerated", "anchors": ["src/stdgpu/impl/atomic_detail.cuh:compare_exchange_strong", "src/stdgpu/openmp/impl/atomic_detail.h:atomic_compare_exchange"]}
{"id": "C11", "title": "CAS-loop min/max is atomic under any interference", "statement": "The CUDA floating point fetch_min / fetch_max, built from a compare-and-swap retry loop, returns a value that was stored at the moment of its successful swap and stores min/max of exactly that value, whatever other threads store in between; unsigned 64 bit fetch_sub through addition of the complement subtracts modulo 2^64.", "quantifier": "all values, all interferences by other threads between any two steps", "why_tests_cant": "the number of interleavings is unbounded; a test run only ever observes one schedule", "anchors": ["src/stdgpu/cuda/impl/atomic_detail.cuh:atomicMin", "src/stdgpu/cuda/impl/atomic_detail.cuh:atomicMax", "src/stdgpu/cuda/impl/atomic_detail.cuh:atomicSub"]}
{"id": "C12", "title": "bitset behaves as an array of size() booleans", "statement": "set(n,v), reset(n), flip(n), operator[] and test return the old (current) value of bit n and change bit n only, for any block width; set(), reset() and flip() act on every bit; every sequence of operations agrees with the same sequence on a plain array of booleans.", "quantifier": "all sizes, block widths that are powers of two, indices and operation sequences", "why_tests_cant": "operation histories are unbounded in length and values", "anchors": ["src/stdgpu/impl/bitset_detail.cuh", "src/stdgpu/bitset.cuh"]}
{"id": "C13", "title": "count/all/any/none look at the size() valid bits only", "statement": "After any operation sequence (including set() and flip(), which also change the unused trailing bits of the last block) count() is the number of true bits with index < size(); all(), any(), none() are count()==size(), count()>0, count()==0 and are false for an empty bitset.", "quantifier": "all sizes, block widths and operation sequences", "why_tests_cant": "operation histories are unbounded in length and values", "anchors": ["src/stdgpu/impl/bitset_detail.cuh:count_block_bits", "src/stdgpu/impl/bitset_detail.cuh:count", "src/stdgpu/impl/bitset_detail.cuh:all", "src/stdgpu/impl/bitset_detail.cuh:any", "src/stdgpu/impl/bitset_detail.cuh:none"]}
{"id": "C14", "title": "concurrent bit operations lose no update", "statement": "When any number of threads set, reset or flip bits that share blocks, under every interleaving every bit ends with the value obtained by applying the operations on that bit in their order of effect, every call returns the value of its bit immediately before, and among concurrent set(n) calls on a clear bit exactly one sees false.", "quantifier": "all thread counts, programs and interleavings", "why_tests_cant": "the number of interleavings is unbounded; a test run only ever observes one schedule", "anchors": ["src/stdgpu/impl/bitset_detail.cuh:reference::operator=", "src/stdgpu/impl/bitset_detail.cuh:reference::flip"]}
{"id": "C15", "title": "mutex_array gives mutual exclusion", "statement": "For every lock index, at every point of every interleaving, at most one thread that obtained true from try_lock has not yet unlocked; locks with different indices do not interfere.", "quantifier": "all thread counts, lock indices and interleavings of well-behaved clients (who unlock only what they locked)", "why_tests_cant": "the number of interleavings is unbounded; a test run only ever observes one schedule", "anchors": ["src/stdgpu/impl/mutex_detail.cuh:reference::try_lock", "src/stdgpu/impl/mutex_detail.cuh:reference::unlock"]}
{"id": "C16", "title": "try_lock over several locks is all-or-nothing", "statement": "try_lock(l0,...,lk) returns -1 and then holds every given lock, or returns the index of the first lock that was not free and then holds none of them, leaving all locks as they were before; this includes a lock passed twice.", "quantifier": "any number of locks, any lock state, any index list", "why_tests_cant": "operation histories are unbounded in length and values", "anchors": ["src/stdgpu/impl/mutex_detail.cuh:try_lock"]}
{"id": "C17", "title": "mutex_array::valid means every lock is free", "statement": "valid() is true if and only if no lock of the array is held; a locked/unlocked pair restores it.", "quantifier": "all sizes and lock/unlock histories", "why_tests_cant": "operation histories are unbounded in length and values", "anchors": ["src/stdgpu/impl/mutex_detail.cuh:valid"]}
{"id": "C18", "title": "vector used by one caller at a time is a bounded stack", "statement": "Any sequence of push_back, pop_back, insert(end,range), erase(begin,end), clear, size, empty, full, operator[], at, front, back, device_range behaves as on a mathematical list bounded by capacity(): push_back fails exactly when full, pop_back returns the last element or false when empty, rejected calls change nothing, and valid() holds throughout.", "quantifier": "all capacities up to INT_MAX, element values and operation sequences", "why_tests_cant": "operation histories are unbounded in length and values", "anchors": ["src/stdgpu/impl/vector_detail.cuh", "src/stdgpu/vector.cuh"]}
{"id": "C19", "title": "concurrent vector push_back/pop_back loses and invents nothing", "statement": "For every number of threads performing any mix of push_back and pop_back under every interleaving, at every moment the values pushed successfully form, as a multiset, exactly the values popped plus the values stored plus those being transferred; no out-of-range access happens and no two threads touch the same slot unsynchronised.", "quantifier": "all thread counts, programs, capacities and interleavings", "why_tests_cant": "the number of interleavings is unbounded; a test run only ever observes one schedule", "anchors": ["src/stdgpu/impl/vector_detail.cuh:push_back", "src/stdgpu/impl/vector_detail.cuh:pop_back"]}
{"id": "C20", "title": "concurrent vector operations can always complete", "statement": "From every state reachable by any interleaving of push_back and pop_back calls there is a schedule that completes every pending and future call: no deadlock and no unavoidable livelock.", "quantifier": "all reachable states, thread counts and programs with independently scheduled threads", "why_tests_cant": "the number of interleavings is unbounded; a test run only ever observes one schedule", "anchors": ["src/stdgpu/impl/vector_detail.cuh:push_back", "src/stdgpu/impl/vector_detail.cuh:pop_back"]}
{"id": "C21", "title": "vector is valid at quiescence below the capacity limit", "statement": "When all concurrent operations have returned and none was rejected after claiming a position, size() equals initial size + successful pushes - successful pops, the occupied slots are exactly [0,size()), and valid() is true.", "quantifier": "all thread counts, programs and interleavings", "why_tests_cant": "the number of interleavings is unbounded; a test run only ever observes one schedule", "anchors": ["src/stdgpu/impl/vector_detail.cuh:valid", "src/stdgpu/impl/vector_detail.cuh:size", "src/stdgpu/impl/vector_detail.cuh:size_valid", "src/stdgpu/impl/vector_detail.cuh:occupied_count_valid"]}
{"id": "C22", "title": "a rejected push_back/pop_back leaves no trace", "statement": "A push_back or pop_back that returns false leaves size() and validity unchanged.", "quantifier": "all concurrent histories", "why_tests_cant": "the number of interleavings is unbounded; a test run only ever observes one schedule", "anchors": ["src/stdgpu/impl/vector_detail.cuh:push_back", "src/stdgpu/impl/vector_detail.cuh:pop_back", "src/stdgpu/impl/deque_detail.cuh:push_back"]}
{"id": "C23", "title": "lane-serialised critical sections cannot block each other", "statement": "When the lanes of a wavefront run the push/pop critical sections one lane after the other (HIP backend), every mix of concurrent push_back and pop_back calls can still complete.", "quantifier": "all wavefront assignments and interleavings", "why_tests_cant": "the number of interleavings is unbounded; a test run only ever observes one schedule", "anchors": ["src/stdgpu/hip/execution.h:warp_convergent_execute", "src/stdgpu/impl/vector_detail.cuh:push_back", "src/stdgpu/impl/vector_detail.cuh:pop_back"]}
{"id": "C24", "title": "deque used by one caller at a time is a bounded double-ended queue", "statement": "Any sequence of push_back, push_front, pop_back, pop_front, clear, size, empty, full, operator[], at, front, back behaves as on a mathematical list bounded by capacity(), for any wrap-around position; rejected calls change nothing and valid() holds throughout.", "quantifier": "all capacities up to INT_MAX, values and operation sequences", "why_tests_cant": "operation histories are unbounded in length and values", "anchors": ["src/stdgpu/impl/deque_detail.cuh", "src/stdgpu/deque.cuh"]}
{"id": "C25", "title": "concurrent deque operations lose and invent nothing", "statement": "For any number of threads performing any mix of the four push/pop operations under every interleaving, at every moment the multiset of successfully pushed values equals popped plus stored plus in transfer; no out-of-range access and no unsynchronised access to a slot.", "quantifier": "all thread counts, programs, capacities and interleavings", "why_tests_cant": "the number of interleavings is unbounded; a test run only ever observes one schedule", "anchors": ["src/stdgpu/impl/deque_detail.cuh:push_back", "src/stdgpu/impl/deque_detail.cuh:push_front", "src/stdgpu/impl/deque_detail.cuh:pop_back", "src/stdgpu/impl/deque_detail.cuh:pop_front"]}
{"id": "C26", "title": "concurrent deque operations can always complete below the capacity limit", "statement": "From every reachable state in which no operation was rejected after changing the size counter, some schedule completes every pending call; at quiescence valid() holds and the stored elements are exactly those between front and back.", "quantifier": "all reachable states, thread counts and programs", "why_tests_cant": "the number of interleavings is unbounded; a test run only ever observes one schedule", "anchors": ["src/stdgpu/impl/deque_detail.cuh:push_back", "src/stdgpu/impl/deque_detail.cuh:push_front", "src/stdgpu/impl/deque_detail.cuh:pop_back", "src/stdgpu/impl/deque_detail.cuh:pop_front", "src/stdgpu/impl/deque_detail.cuh:valid"]}
{"id": "C27", "title": "exceeding the deque limits concurrently never blocks later callers", "statement": "After concurrent pushes beyond capacity (or pops beyond empty) have returned, later operations still return.", "quantifier": "all concurrent histories", "why_tests_cant": "the number of interleavings is unbounded; a test run only ever observes one schedule", "anchors": ["src/stdgpu/impl/deque_detail.cuh:push_back", "src/stdgpu/impl/deque_detail.cuh:pop_back"]}
{"id": "C28", "title": "deque device_range enumerates the content exactly once", "statement": "device_range() contains the position of every stored element exactly once and nothing else, its length is size(), for full, contiguous and wrapped contents.", "quantifier": "all reachable contents", "why_tests_cant": "operation histories are unbounded in length and values", "anchors": ["src/stdgpu/impl/deque_detail.cuh:device_range"]}
{"id": "C29", "title": "deque clear destroys each live element exactly once", "statement": "clear() runs the destructor of every stored element exactly once, of nothing else, and leaves an empty valid deque; so does destroyDeviceObject.", "quantifier": "all reachable contents, wrap-around positions", "why_tests_cant": "operation histories are unbounded in length and values", "anchors": ["src/stdgpu/impl/deque_detail.cuh:clear"]}
{"id": "C30", "title": "queue is FIFO and stack is LIFO", "statement": "queue::push/pop returns elements in insertion order and stack::push/pop in reverse insertion order, bounded by the capacity.", "quantifier": "all operation sequences", "why_tests_cant": "operation histories are unbounded in length and values", "anchors": ["src/stdgpu/impl/queue_detail.cuh", "src/stdgpu/impl/stack_detail.cuh"]}
{"id": "C31", "title": "every key maps to an existing bucket", "statement": "bucket(key) < bucket_count() for every hash value and every bucket count, and equal hash values map to equal buckets; for power-of-two bucket counts every bucket is the image of some hash value.", "quantifier": "all 2^64 hash values, all bucket counts", "why_tests_cant": "2^64 inputs (and every width) cannot be enumerated", "anchors": ["src/stdgpu/impl/unordered_base_detail.cuh:fibonacci_hashing", "src/stdgpu/impl/unordered_base_detail.cuh:bucket_impl"]}
{"id": "C32", "title": "unordered containers used by one caller at a time are finite maps", "statement": "After any sequence of insert, erase, clear: find/contains/count answer membership exactly, the found element is the one inserted, insert returns true exactly when it added the key, a rejected insert changes nothing, erase returns 1 exactly when the key was present, no key is stored twice and no other key is affected, for any hash function including constant ones.", "quantifier": "all hash functions, key/value types, capacities and operation sequences", "why_tests_cant": "operation histories are unbounded in length and values", "anchors": ["src/stdgpu/impl/unordered_base_detail.cuh:try_insert", "src/stdgpu/impl/unordered_base_detail.cuh:try_erase", "src/stdgpu/impl/unordered_base_detail.cuh:find_impl", "src/stdgpu/impl/unordered_base_detail.cuh:insert", "src/stdgpu/impl/unordered_base_detail.cuh:erase"]}
{"id": "C33", "title": "unordered valid() holds after every sequential history", "statement": "valid() (offsets in range, chains loop free, values reachable, unique, counts consistent, locks free, excess list valid) is true after creation and after every sequence of operations.", "quantifier": "all hash functions and operation sequences", "why_tests_cant": "operation histories are unbounded in length and values", "anchors": ["src/stdgpu/impl/unordered_base_detail.cuh:valid"]}
{"id": "C34", "title": "unordered device_range and bucket sizes enumerate the content", "statement": "device_range() lists every stored element exactly once and nothing else under every schedule of the collecting kernel, its length is size(), and the bucket_size(n) over all buckets sum to size(), each element counted in bucket(key).", "quantifier": "all reachable contents and schedules", "why_tests_cant": "operation histories are unbounded in length and values; the number of interleavings is unbounded; a test run only ever observes one schedule", "anchors": ["src/stdgpu/impl/unordered_base_detail.cuh:device_range", "src/stdgpu/impl/unordered_base_detail.cuh:unordered_base_collect_positions", "src/stdgpu/impl/unordered_base_detail.cuh:bucket_size"]}
{"id": "C35", "title": "insert is rejected only when the container is out of room", "statement": "For a key not contained, insert fails exactly when full() or no excess entry is left; size() <= max_size() always holds.", "quantifier": "all reachable contents and hash functions", "why_tests_cant": "operation histories are unbounded in length and values", "anchors": ["src/stdgpu/impl/unordered_base_detail.cuh:insert", "src/stdgpu/impl/unordered_base_detail.cuh:full", "src/stdgpu/impl/unordered_base_detail.cuh:size"]}
{"id": "C36", "title": "a container created for n elements can hold n elements", "statement": "After createDeviceObject(n), max_size() >= n, bucket_count() is a power of two, and inserting any n distinct keys succeeds.", "quantifier": "all capacities, hash functions and key sets", "why_tests_cant": "2^64 inputs (and every width) cannot be enumerated", "anchors": ["src/stdgpu/impl/unordered_base_detail.cuh:createDeviceObject", "src/stdgpu/impl/unordered_base_detail.cuh:expected_collisions"]}
{"id": "C37", "title": "concurrent inserts never create duplicates", "statement": "When any number of threads insert (and look up) concurrently under every interleaving, no key is stored twice, every successful insert is findable afterwards, at most one insert per key reports success, no previously stored key disappears, and the structure is well formed whenever no critical section is active.", "quantifier": "all thread counts, programs, hash functions and interleavings", "why_tests_cant": "the number of interleavings is unbounded; a test run only ever observes one schedule", "anchors": ["src/stdgpu/impl/unordered_base_detail.cuh:try_insert", "src/stdgpu/impl/unordered_base_detail.cuh:find_impl"]}
{"id": "C38", "title": "concurrent inserts and erases never create duplicates", "statement": "With inserts and erases running concurrently, no key is ever stored twice.", "quantifier": "all interleavings of insert and erase", "why_tests_cant": "the number of interleavings is unbounded; a test run only ever observes one schedule", "anchors": ["src/stdgpu/impl/unordered_base_detail.cuh:try_insert", "src/stdgpu/impl/unordered_base_detail.cuh:try_erase"]}
{"id": "C39", "title": "lookups of undisturbed keys are stable", "statement": "A find/contains for a key that is stored during the whole call and not itself modified succeeds, whatever inserts and erases of other keys run concurrently.", "quantifier": "all interleavings", "why_tests_cant": "the number of interleavings is unbounded; a test run only ever observes one schedule", "anchors": ["src/stdgpu/impl/unordered_base_detail.cuh:find_impl", "src/stdgpu/impl/unordered_base_detail.cuh:try_erase", "src/stdgpu/impl/unordered_base_detail.cuh:try_insert"]}
{"id": "C40", "title": "clear empties the container", "statement": "clear() leaves size() = 0, no key findable, all excess entries available, valid() true, destroys every stored value exactly once, and later behaviour equals that of a new container.", "quantifier": "all reachable contents", "why_tests_cant": "operation histories are unbounded in length and values", "anchors": ["src/stdgpu/impl/unordered_base_detail.cuh:clear", "src/stdgpu/impl/vector_detail.cuh:vector_clear_iota"]}
{"id": "C41", "title": "equal keys have equal hash values", "statement": "For every key type with a stdgpu::hash and operator==, k1 == k2 implies hash(k1) == hash(k2) (so equal keys are found); for integer types the hash is also injective.", "quantifier": "all values of all supported key types", "why_tests_cant": "2^64 inputs (and every width) cannot be enumerated", "anchors": ["src/stdgpu/impl/functional_detail.h:hash", "src/stdgpu/impl/bit_detail.h:bit_cast"]}
{"id": "C42", "title": "allocation counters match the allocation history", "statement": "After any history of allocate/deallocate (including invalid requests, double frees and unknown pointers), get_allocation_count - get_deallocation_count is the number of live blocks, rejected calls change nothing, and each counter equals the number of successful calls.", "quantifier": "all histories for all memory types", "why_tests_cant": "operation histories are unbounded in length and values", "anchors": ["src/stdgpu/impl/memory.cpp:memory_manager", "src/stdgpu/impl/memory.cpp:allocate", "src/stdgpu/impl/memory.cpp:deallocate"]}
{"id": "C43", "title": "registered sizes and types are reported faithfully", "statement": "size_bytes(p) and get_dynamic_memory_type(p) give the bytes and type with which p was last registered and not deregistered, 0 / invalid otherwise; size<T>(p) is the element count when divisible, else 0.", "quantifier": "all histories of register/deregister", "why_tests_cant": "operation histories are unbounded in length and values", "anchors": ["src/stdgpu/impl/memory.cpp:get_dynamic_memory_type", "src/stdgpu/impl/memory.cpp:register_memory", "src/stdgpu/impl/memory.cpp:deregister_memory", "src/stdgpu/impl/memory.cpp:size_bytes", "src/stdgpu/impl/iterator_detail.h:size"]}
{"id": "C44", "title": "range check accepts exactly sub-blocks of live allocations", "statement": "The safety check of copy functions accepts [p,p+n), n>0, if and only if it lies completely inside one live allocated block of the stated memory type.", "quantifier": "all sets of live blocks and all ranges", "why_tests_cant": "operation histories are unbounded in length and values", "anchors": ["src/stdgpu/impl/memory.cpp:contains_submemory"]}
{"id": "C45", "title": "range-checked copies are memory safe and exact", "statement": "With range checking, copy functions either change nothing (range not inside a live block) or copy exactly the requested bytes and change no other byte.", "quantifier": "all memory contents, live blocks and ranges", "why_tests_cant": "operation histories are unbounded in length and values", "anchors": ["src/stdgpu/impl/memory.cpp:memcpy", "src/stdgpu/impl/memory_detail.h:copyDevice2HostArray"]}
{"id": "C46", "title": "double free is always detected", "statement": "For every history, also a concurrent one, a block is freed at most once.", "quantifier": "all histories and interleavings", "why_tests_cant": "the number of interleavings is unbounded; a test run only ever observes one schedule", "anchors": ["src/stdgpu/impl/memory.cpp:deallocate"]}
{"id": "C47", "title": "allocation failure is harmless", "statement": "A failing backend allocation leaves the bookkeeping consistent and counted as no allocation.", "quantifier": "all histories with failing allocations", "why_tests_cant": "operation histories are unbounded in length and values", "anchors": ["src/stdgpu/impl/memory.cpp:allocate", "src/stdgpu/openmp/impl/memory.cpp:malloc_device"]}
{"id": "C48", "title": "create/copy/destroy array round trip", "statement": "createDeviceArray(n,v) yields n elements equal to v and size n; copying device to host and back preserves every element; destroy returns the bookkeeping to its previous live set.", "quantifier": "all sizes, values and live sets", "why_tests_cant": "operation histories are unbounded in length and values", "anchors": ["src/stdgpu/impl/memory_detail.h:createDeviceArray", "src/stdgpu/impl/memory_detail.h:copyCreateDevice2HostArray", "src/stdgpu/impl/memory_detail.h:destroyDeviceArray"]}
{"id": "C49", "title": "parallel index algorithms are schedule independent", "statement": "fill, fill_n, copy (non-overlapping), iota, uninitialized_fill, uninitialized_copy and destroy give the sequential result and touch exactly [0,n) for every order in which the indices are processed.", "quantifier": "all sizes, values and processing orders", "why_tests_cant": "the number of interleavings is unbounded; a test run only ever observes one schedule", "anchors": ["src/stdgpu/impl/algorithm_detail.h:for_each_index", "src/stdgpu/impl/algorithm_detail.h:fill_functor", "src/stdgpu/impl/algorithm_detail.h:copy_functor", "src/stdgpu/impl/numeric_detail.h:iota_functor", "src/stdgpu/impl/memory_detail.h:uninitialized_fill_functor"]}
{"id": "C50", "title": "transform_reduce_index does not depend on the reduction order", "statement": "For an associative and commutative operation, every grouping and order of the reduction, including the HIP host fold, gives the left fold over f(0..n-1) starting from init.", "quantifier": "all sizes, functions and reduction trees", "why_tests_cant": "the number of interleavings is unbounded; a test run only ever observes one schedule", "anchors": ["src/stdgpu/impl/numeric_detail.h:transform_reduce_index"]}
{"id": "C51", "title": "min, max and clamp are order-theoretic", "statement": "min/max return the smaller/larger argument (the first one if equivalent); clamp(v,lo,hi) with lo<=hi is the unique closest element of [lo,hi]; clamp is idempotent.", "quantifier": "all totally (pre)ordered values", "why_tests_cant": "2^64 inputs (and every width) cannot be enumerated", "anchors": ["src/stdgpu/impl/algorithm_detail.h:min", "src/stdgpu/impl/algorithm_detail.h:max", "src/stdgpu/impl/algorithm_detail.h:clamp"]}
{"id": "C52", "title": "every active lane runs the critical section exactly once", "statement": "HIP warp_convergent_execute runs the body once for each lane of the active mask, in ascending lane order, and for no other lane, and terminates.", "quantifier": "all active masks", "why_tests_cant": "2^64 inputs (and every width) cannot be enumerated", "anchors": ["src/stdgpu/hip/execution.h:warp_convergent_execute"]}
{"id": "C53", "title": "operations never touch dead objects", "statement": "No container operation reads or destroys an element whose lifetime has not begun or has ended; every constructed element is destroyed exactly once by pop, erase, clear or destroyDeviceObject.", "quantifier": "all operation sequences", "why_tests_cant": "operation histories are unbounded in length and values", "anchors": ["src/stdgpu/impl/vector_detail.cuh:pop_back", "src/stdgpu/impl/deque_detail.cuh:pop_back", "src/stdgpu/impl/unordered_base_detail.cuh:try_erase", "src/stdgpu/impl/unordered_base_detail.cuh:clear"]}
{"id": "C54", "title": "block count covers all bits", "statement": "div_up(a,b) is the least q with q*b >= a; a bitset of n bits owns exactly the blocks needed and every valid index addresses one of them.", "quantifier": "all a >= 0, b > 0", "why_tests_cant": "2^64 inputs (and every width) cannot be enumerated", "anchors": ["src/stdgpu/impl/bitset_detail.cuh:div_up", "src/stdgpu/impl/bitset_detail.cuh:number_bit_blocks"]}
{"id": "C55", "title": "erasing one element of a collision chain keeps the others", "statement": "erase of any element of a collision chain (head, middle, tail) leaves every other element of every chain findable at the same position, and the freed entry is reusable.", "quantifier": "all chains, positions and hash functions", "why_tests_cant": "operation histories are unbounded in length and values", "anchors": ["src/stdgpu/impl/unordered_base_detail.cuh:try_erase", "src/stdgpu/impl/unordered_base_detail.cuh:find_previous_entry_position"]}
{"id": "C56", "title": "numeric_limits of integer types are exact", "statement": "For each integer type, max() = 2^digits - 1, min() = lowest() = -2^digits (signed) or 0 (unsigned), and these are exactly the least and greatest value of the type.", "quantifier": "all integer types", "why_tests_cant": "2^64 inputs (and every width) cannot be enumerated", "anchors": ["src/stdgpu/impl/limits_detail.h", "src/stdgpu/limits.h"]}
{"id": "C57", "title": "iterators inserting into containers equal the container operation", "statement": "Assigning a sequence through back_inserter/front_inserter/inserter has the effect of push_back/push_front/insert of each value in turn.", "quantifier": "all sequences", "why_tests_cant": "operation histories are unbounded in length and values", "anchors": ["src/stdgpu/impl/iterator_detail.h:back_insert_iterator_proxy", "src/stdgpu/impl/iterator_detail.h:front_insert_iterator_proxy", "src/stdgpu/impl/iterator_detail.h:insert_iterator_proxy"]}
{"id": "C58", "title": "atomic operations fence as their memory order demands", "statement": "No memory access of the calling thread that follows an atomic operation with order acquire, consume, acq_rel or seq_cst can take effect before it, and none that precedes an operation with order release, acq_rel or seq_cst can take effect after it.", "quantifier": "all memory orders and operations", "why_tests_cant": "2^64 inputs (and every width) cannot be enumerated", "anchors": ["src/stdgpu/impl/atomic_detail.cuh:atomic_load_thread_fence", "src/stdgpu/impl/atomic_detail.cuh:atomic_store_thread_fence", "src/stdgpu/impl/atomic_detail.cuh:atomic_consistency_thread_fence"]}
{"id": "C59", "title": "increment, decrement and compound assignment return what they stored", "statement": "On every integer atomic, ++a, --a, a op= x and a = x return exactly the value they stored, a++ and a-- the value they replaced, and the stored value is the documented one (sums and differences modulo 2^w).", "quantifier": "all widths, signedness, old values and arguments", "why_tests_cant": "2^64 inputs (and every width) cannot be enumerated", "anchors": ["src/stdgpu/impl/atomic_detail.cuh:atomic_ref::operator++", "src/stdgpu/impl/atomic_detail.cuh:atomic_ref::operator+="]}
{"id": "C60", "title": "the live blocks are exactly those of the live objects", "statement": "After any history of creating and destroying atomics, bitsets, mutex arrays, vectors, deques, queues, stacks, unordered maps and sets, and arrays, the allocated blocks are exactly those of the objects not yet destroyed: disjoint, each of the size and memory type the object needs; nothing is leaked or freed early, creating or destroying one object changes no byte of another, and the bookkeeping parts of a new object are zero.", "quantifier": "all histories, sizes, element sizes and allocator behaviours", "why_tests_cant": "operation histories are unbounded in length and values", "anchors": ["src/stdgpu/impl/vector_detail.cuh:createDeviceObject", "src/stdgpu/impl/deque_detail.cuh:destroyDeviceObject", "src/stdgpu/impl/unordered_base_detail.cuh:createDeviceObject", "src/stdgpu/impl/unordered_base_detail.cuh:destroyDeviceObject", "src/stdgpu/impl/bitset_detail.cuh:createDeviceObject", "src/stdgpu/impl/mutex_detail.cuh:createDeviceObject", "src/stdgpu/impl/atomic_detail.cuh:createDeviceObject"]}
{"id": "C61", "title": "destroying an object twice is harmless", "statement": "Calling destroyDeviceObject (or destroyDeviceArray/destroyHostArray) again on an object already destroyed, at any later time, changes nothing.", "quantifier": "all histories and kinds of objects", "why_tests_cant": "operation histories are unbounded in length and values", "anchors": ["src/stdgpu/impl/unordered_base_detail.cuh:destroyDeviceObject", "src/stdgpu/impl/vector_detail.cuh:destroyDeviceObject", "src/stdgpu/impl/memory_detail.h:destroyDeviceArray"]}
{"id": "C62", "title": "concurrent erases and lookups behave like one-at-a-time calls", "statement": "When any number of threads erase and look up (without inserts) concurrently under every interleaving, on a container of values with trivial destructors: a key stops being present only through a running erase of an equal key and never comes back; what a lookup or an erase finds was present when it started, a key reported absent is absent from then on; at most one erase per key reports success; keys nobody erases are found; every access is defined; and whenever no call is running the content is the old content without the erased keys, size() is right and valid() is true.", "quantifier": "all containers produced by any history, thread counts, programs, hash functions and interleavings", "why_tests_cant": "the number of interleavings is unbounded; a test run only ever observes one schedule", "anchors": ["src/stdgpu/impl/unordered_base_detail.cuh:try_erase", "src/stdgpu/impl/unordered_base_detail.cuh:find_impl", "src/stdgpu/impl/unordered_base_detail.cuh:find_previous_entry_position"]}
{"id": "C63", "title": "containers used in phases stay correct over any history", "statement": "For every history of phases (calls of one caller, kernels that insert and look up with enough free excess entries, kernels that erase and look up), there is one finite set of values with distinct keys that explains every result of every call and is exactly what the container stores at the end, and valid() is true.", "quantifier": "all histories, programs, hash functions and interleavings", "why_tests_cant": "operation histories are unbounded in length and values", "anchors": ["src/stdgpu/impl/unordered_base_detail.cuh:try_insert", "src/stdgpu/impl/unordered_base_detail.cuh:try_erase", "src/stdgpu/impl/unordered_base_detail.cuh:find_impl", "src/stdgpu/impl/unordered_base_detail.cuh:clear", "src/stdgpu/impl/unordered_base_detail.cuh:valid"]}
{"id": "C64", "title": "a lookup concurrent with an erase reads only living values", "statement": "A find/contains running while other threads erase never reads a value whose destructor has run.", "quantifier": "all interleavings of find and erase, value types with non-trivial destructors", "why_tests_cant": "the number of interleavings is unbounded; a test run only ever observes one schedule", "anchors": ["src/stdgpu/impl/unordered_base_detail.cuh:find_impl", "src/stdgpu/impl/unordered_base_detail.cuh:try_erase"]}
{"id": "C65", "title": "concurrent calls on unordered containers can always complete", "statement": "When any number of threads insert and look up, or erase and look up, or one thread erases while any number of others insert and look up, no interleaving leads to a state from which some call can no longer return (no deadlock, no lock left taken); a thread that runs while no other thread is inside a call completes its own call, from wherever it is in it.", "quantifier": "all containers produced by any history, thread counts, programs, hash functions and interleavings", "why_tests_cant": "the number of interleavings is unbounded; a test run only ever observes one schedule", "anchors": ["src/stdgpu/impl/unordered_base_detail.cuh:try_insert", "src/stdgpu/impl/unordered_base_detail.cuh:try_erase", "src/stdgpu/impl/unordered_base_detail.cuh:insert", "src/stdgpu/impl/unordered_base_detail.cuh:erase", "src/stdgpu/impl/unordered_base_detail.cuh:find_impl"]}
{"id": "C66", "title": "inserting and erasing ranges does not depend on the schedule", "statement": "After erase(begin, end) of an unordered container exactly the values with a key of the range are gone, and after insert(begin, end) (with enough free excess entries) the old values are all still there and the stored keys are exactly the old keys and the keys of the range, each new key with one of the range's values for it; size() and valid() agree. For a set this is the union.", "quantifier": "all containers produced by any history, ranges (also with repeated keys), distributions of the calls over threads and interleavings", "why_tests_cant": "the number of interleavings is unbounded; a test run only ever observes one schedule", "anchors": ["src/stdgpu/impl/unordered_base_detail.cuh:insert", "src/stdgpu/impl/unordered_base_detail.cuh:erase", "src/stdgpu/impl/unordered_base_detail.cuh:insert_value", "src/stdgpu/impl/unordered_base_detail.cuh:erase_from_key"]}
{"id": "C67", "title": "kernels that mix inserts and erases are memory safe and lose nothing", "statement": "When threads insert and erase different keys concurrently (every key used by one call only, values with trivial destructors), every access stays inside the container's arrays, and after the kernel exactly the stored and inserted keys that were not erased are found.", "quantifier": "all containers produced by any history, thread counts, programs and interleavings", "why_tests_cant": "the number of interleavings is unbounded; a test run only ever observes one schedule", "anchors": ["src/stdgpu/impl/unordered_base_detail.cuh:try_insert", "src/stdgpu/impl/unordered_base_detail.cuh:try_erase", "src/stdgpu/impl/unordered_base_detail.cuh:find_linked_list_end", "src/stdgpu/impl/unordered_base_detail.cuh:find_previous_entry_position"]}
{"id": "C68", "title": "one inserting and one erasing thread are linearizable", "statement": "If in a kernel only one thread inserts and only one thread erases (values with trivial destructors), then in every interleaving every access is defined, and there is one order of the inserts and erases that respects the real-time order of the calls and in which their results are those of sequential calls on a set (an insert may also be refused when at most one of the excess entries is unused); the values that can be found from their buckets are those this order leaves. When no call is running these are the values of the container, size() is their number and valid() is true.", "quantifier": "all containers produced by any history, numbers of looking-up threads, programs of the two updating threads and interleavings", "why_tests_cant": "the number of interleavings is unbounded; a test run only ever observes one schedule", "anchors": ["src/stdgpu/impl/unordered_base_detail.cuh:try_insert", "src/stdgpu/impl/unordered_base_detail.cuh:try_erase", "src/stdgpu/impl/unordered_base_detail.cuh:insert", "src/stdgpu/impl/unordered_base_detail.cuh:erase", "src/stdgpu/impl/unordered_base_detail.cuh:find_impl"]}
{"id": "C69", "title": "a lookup that runs next to inserts and erases finds what is stored", "statement": "find/contains of a key that is stored in the container during the whole call finds it, while one other thread inserts and one other thread erases other keys.", "quantifier": "all containers, keys and interleavings", "why_tests_cant": "the number of interleavings is unbounded; a test run only ever observes one schedule", "anchors": ["src/stdgpu/impl/unordered_base_detail.cuh:find_impl", "src/stdgpu/impl/unordered_base_detail.cuh:try_insert", "src/stdgpu/impl/unordered_base_detail.cuh:try_erase"]}
{"id": "C70", "title": "device_unique_object owns its object exactly once", "statement": "For every program that creates, moves, move-assigns (also onto itself) and ends the scope of device_unique_object variables in any order: every object is owned by exactly one variable or has been destroyed exactly once; moving never copies, destroys or changes a held object; the allocated blocks are exactly those of the held objects, so after all scopes end nothing is leaked; operator bool tells whether a variable owns an object and dereferencing it is defined exactly then.", "quantifier": "all programs, kinds and sizes of objects and allocator behaviours", "why_tests_cant": "operation histories are unbounded in length and values", "anchors": ["src/stdgpu/memory.h:device_unique_object", "src/stdgpu/impl/memory_detail.h:device_unique_object"]}
{"id": "C71", "title": "iterators and ranges over arrays cover exactly the array", "statement": "After any history of array calls, for every pointer p the loop from device_begin(p) to device_end(p) (host_begin/host_end, device_range/host_range) visits size(p) elements in order, which are the whole array if p is the start of a live array of such elements, and nothing otherwise, so iteration never leaves live memory; counted, transformed and indexed ranges yield exactly the elements named, in order, and size()/empty() agree.", "quantifier": "all histories of array calls, pointers, element sizes, counts and functions", "why_tests_cant": "operation histories are unbounded in length and values", "anchors": ["src/stdgpu/impl/ranges_detail.h:device_range", "src/stdgpu/impl/ranges_detail.h:transform_range", "src/stdgpu/impl/iterator_detail.h:device_begin", "src/stdgpu/impl/iterator_detail.h:size"]}
{"id": "C72", "title": "transparent lookups find what an equal key would find", "statement": "With transparent hash and key_equal, find/contains/count called with an object x of another type: provided stored keys that compare equal to x have its hash value, find(x) is defined, ends and returns the position of a stored value whose key equals x, or end() exactly if there is none, and contains(x)/count(x) agree; if x stands for a key (equal hash, compares like the key) all results are those of the call with the key itself.", "quantifier": "all containers produced by any history, key-like types, hash and comparison functions", "why_tests_cant": "operation histories are unbounded in length and values", "anchors": ["src/stdgpu/impl/unordered_base_detail.cuh:find_impl", "src/stdgpu/impl/unordered_base_detail.cuh:contains_impl", "src/stdgpu/impl/unordered_base_detail.cuh:count_impl"]}
{"id": "C73", "title": "a concurrently used queue is first in, first out", "statement": "When any number of threads push to and pop from a queue concurrently, the calls can be put in an order that respects their order in time, in which every call does what a first-in first-out queue of that capacity does: pops return the elements in the order of their pushes, and calls are refused only if the queue is full or empty; at rest the queue holds the elements of that order.", "quantifier": "all numbers of threads, programs, initial contents, capacities and schedules", "why_tests_cant": "the number of interleavings is unbounded; a test run only ever observes one schedule", "anchors": ["src/stdgpu/impl/deque_detail.cuh:push_back", "src/stdgpu/impl/deque_detail.cuh:pop_front", "src/stdgpu/impl/queue_detail.cuh:push", "src/stdgpu/impl/queue_detail.cuh:pop"]}
{"id": "C74", "title": "a concurrently used vector or stack is last in, first out", "statement": "When any number of threads push to and pop from a vector or a stack concurrently, the calls can be put in an order that respects their order in time, in which every call does what a bounded stack does: a pop returns the newest element, and calls are refused only if the stack is full or empty; at rest the container holds the elements of that order.", "quantifier": "all numbers of threads, programs, initial contents, capacities and schedules", "why_tests_cant": "the number of interleavings is unbounded; a test run only ever observes one schedule", "anchors": ["src/stdgpu/impl/vector_detail.cuh:push_back", "src/stdgpu/impl/vector_detail.cuh:pop_back", "src/stdgpu/impl/deque_detail.cuh:push_back", "src/stdgpu/impl/deque_detail.cuh:pop_back", "src/stdgpu/impl/stack_detail.cuh:push", "src/stdgpu/impl/stack_detail.cuh:pop"]}
{"id": "C75", "title": "kernels that only push or only pop always finish, with as many successes as possible", "statement": "When any number of threads call only push functions (or only pop functions) of a vector, deque, queue or stack concurrently, every execution under every schedule ends after a bounded number of accesses per call without any thread ever waiting for another one, and exactly as many calls succeed as there is room (or as there are elements); none is refused before that.", "quantifier": "all numbers of threads, programs of one kind, initial contents, capacities and schedules (no fairness)", "why_tests_cant": "the number of interleavings is unbounded; a test run only ever observes one schedule", "anchors": ["src/stdgpu/impl/vector_detail.cuh:push_back", "src/stdgpu/impl/vector_detail.cuh:pop_back", "src/stdgpu/impl/deque_detail.cuh:push_back", "src/stdgpu/impl/deque_detail.cuh:push_front", "src/stdgpu/impl/deque_detail.cuh:pop_back", "src/stdgpu/impl/deque_detail.cuh:pop_front"]}
{"id": "C76", "title": "the 32-bit size counters never overflow in concurrent use", "statement": "For every kernel on a vector, deque, queue, stack or unordered container, the size counter (an int that calls increment and decrement before they know whether they succeed) never wraps around, whatever the schedule and however many calls are made, as long as capacity plus number of threads (for the element count of unordered containers: count plus number of calls) is at most INT_MAX; so the container behaves as with an unbounded counter, and the same holds for the next kernel.", "quantifier": "all containers, initial counters, thread counts, programs and schedules within that bound", "why_tests_cant": "the number of interleavings is unbounded; a test run only ever observes one schedule", "anchors": ["src/stdgpu/impl/vector_detail.cuh:push_back", "src/stdgpu/impl/vector_detail.cuh:pop_back", "src/stdgpu/impl/deque_detail.cuh:push_back", "src/stdgpu/impl/deque_detail.cuh:pop_front", "src/stdgpu/impl/unordered_base_detail.cuh:try_insert", "src/stdgpu/impl/unordered_base_detail.cuh:try_erase"]}
{"id": "C77", "title": "concurrent calls on unordered containers have no data race on non-atomic memory", "statement": "When threads call insert, erase and find of one unordered container concurrently, no two of them access the same non-atomic object (a stored value, the offset that links an entry, or an element of the list of free entries) at the same time with one of them writing.", "quantifier": "all containers, thread counts, programs and schedules", "why_tests_cant": "the number of interleavings is unbounded; a test run only ever observes one schedule", "anchors": ["src/stdgpu/impl/unordered_base_detail.cuh:try_insert", "src/stdgpu/impl/unordered_base_detail.cuh:try_erase", "src/stdgpu/impl/unordered_base_detail.cuh:find_impl", "src/stdgpu/impl/unordered_base.cuh:_offsets"]}
{"id": "C78", "title": "kernels whose keys do not collide are exactly linearizable", "statement": "If in a kernel the keys used lie in different buckets, their buckets hold no other value and no collision list, and a key that is erased is inserted by one thread only (any number of threads may erase it and look it up; values with trivial destructors, one excess entry unused), then in every interleaving of any number of inserting, erasing and searching threads: every access is defined; the calls can be put in an order that respects their order in time and in which each has exactly the result of a sequential call on a set; a lookup was right at a moment of its call; equal keys are never stored twice; calls with different keys never block each other, and all calls can always complete. Afterwards size() is the number of stored values, every value can be found from its bucket, and the same holds for the next such kernel. The other buckets may hold anything.", "quantifier": "all containers produced by any history, thread counts, programs without collisions, hash functions and interleavings, and all sequences of such kernels", "why_tests_cant": "the number of interleavings is unbounded; a test run only ever observes one schedule", "anchors": ["src/stdgpu/impl/unordered_base_detail.cuh:try_insert", "src/stdgpu/impl/unordered_base_detail.cuh:try_erase", "src/stdgpu/impl/unordered_base_detail.cuh:find_impl", "src/stdgpu/impl/unordered_base_detail.cuh:insert", "src/stdgpu/impl/unordered_base_detail.cuh:erase"]}
{"id": "C79", "title": "nothing is lost or stored twice in any mixture of inserts, erases and lookups", "statement": "In every interleaving of any number of threads that insert, erase and look keys up on one unordered container, at every point of every kernel and after any number of such kernels: the values in the container together with those the erases removed are exactly the initial values and those whose insert reported success (of the calls that are still running, some may already have stored or removed theirs); each erase that reported success removed exactly one value, with an equal key, and no value is removed by two erases; size() is between 0 and the total number of entries at every moment, and is the number of values in the container whenever no call is running.", "quantifier": "all containers produced by any history, thread counts, programs, hash functions, interleavings and sequences of kernels", "why_tests_cant": "the number of interleavings is unbounded; a test run only ever observes one schedule", "anchors": ["src/stdgpu/impl/unordered_base_detail.cuh:try_insert", "src/stdgpu/impl/unordered_base_detail.cuh:try_erase", "src/stdgpu/impl/unordered_base_detail.cuh:insert", "src/stdgpu/impl/unordered_base_detail.cuh:erase", "src/stdgpu/impl/unordered_base_detail.cuh:size"]}
{"id": "C80", "title": "a stored key that no erase concerns is always found, at the same place", "statement": "Let a key be stored in an unordered container, and let any number of threads insert, erase and look keys up, in any number of kernels one after the other, where the erases use keys of other buckets (bucket() differs); if the key is stored at the index of its bucket, the erases may also use other keys of its bucket. Then, in every interleaving, at every moment: the key stays stored at the same position with the same value (iterators and pointers to it stay valid); every lookup of it returns this position, never end(); every insert of an equal key is refused, so it is never stored twice; and a lookup of it only makes defined accesses, waits for nobody, and returns after at most four accesses per entry of the container and one, whatever the other threads do.", "quantifier": "all containers produced by any history, keys stored in them, thread counts, programs whose erases do not use the key's bucket, hash functions, interleavings and sequences of kernels; value types with and without a trivial destructor", "why_tests_cant": "the number of interleavings is unbounded; a test run only ever observes one schedule", "anchors": ["src/stdgpu/impl/unordered_base_detail.cuh:find_impl", "src/stdgpu/impl/unordered_base_detail.cuh:contains_impl", "src/stdgpu/impl/unordered_base_detail.cuh:try_insert", "src/stdgpu/impl/unordered_base_detail.cuh:try_erase"]}
{"id": "C81", "title": "what inserts, erases and lookups report was so at a moment of the call", "statement": "In every interleaving of any number of threads that insert, erase and look keys up on one unordered container, after any number of such kernels: the inserts and erases that report success have one order, which respects their order in time, in which each has exactly its effect on the content (an insert puts its value into the position it returns, which held nothing; an erase removes one value with an equal key) and nothing else changes the content; a lookup that returns a position was right at a moment of its call: a value with an equal key was stored in that position, or an insert of it was running that had written it there; an insert that reports false had a reason at a moment of its call: size() was the number of all entries, no excess entry was on offer, or a value with an equal key was there in this sense.", "quantifier": "all containers produced by any history, thread counts, programs, hash functions, interleavings and sequences of kernels; value types with and without a trivial destructor", "why_tests_cant": "the number of interleavings is unbounded; a test run only ever observes one schedule", "anchors": ["src/stdgpu/impl/unordered_base_detail.cuh:find_impl", "src/stdgpu/impl/unordered_base_detail.cuh:try_insert", "src/stdgpu/impl/unordered_base_detail.cuh:try_erase", "src/stdgpu/impl/unordered_base_detail.cuh:insert", "src/stdgpu/impl/unordered_base_detail.cuh:erase"]}
{"id": "C82", "title": "a vector stays usable after concurrent calls exceeded its limits", "statement": "Once concurrent push_back/pop_back calls have returned, however many of them were rejected: every sequence of calls by one caller gives the results of a list bounded by the capacity that holds the stored elements, except that as many later pop_back calls return false as there were more rejected pushes than pops (or as many push_back calls, the other way round); in particular size(), empty(), full(), operator[], front(), back() and device_range() are exact at once, and clear() makes the vector as good as a new one.", "quantifier": "all capacities, initial contents, thread counts, programs, interleavings and later sequences of calls", "why_tests_cant": "operation histories are unbounded in length and values", "anchors": ["src/stdgpu/impl/vector_detail.cuh:push_back", "src/stdgpu/impl/vector_detail.cuh:pop_back", "src/stdgpu/impl/vector_detail.cuh:clear", "src/stdgpu/impl/vector_detail.cuh:insert", "src/stdgpu/impl/vector_detail.cuh:erase", "src/stdgpu/impl/vector_detail.cuh:size", "src/stdgpu/impl/vector_detail.cuh:valid"]}
{"id": "C83", "title": "a deque stays usable after concurrent calls exceeded its limits", "statement": "Once concurrent push/pop calls on a deque (queue, stack) have returned, however many of them were rejected: later calls by one caller give the results of a bounded list that holds the stored elements, every one of them returns, and clear() destroys exactly the stored elements.", "quantifier": "all capacities, initial contents, thread counts, programs, interleavings and later sequences of calls", "why_tests_cant": "operation histories are unbounded in length and values", "anchors": ["src/stdgpu/impl/deque_detail.cuh:push_back", "src/stdgpu/impl/deque_detail.cuh:pop_back", "src/stdgpu/impl/deque_detail.cuh:push_front", "src/stdgpu/impl/deque_detail.cuh:pop_front", "src/stdgpu/impl/deque_detail.cuh:clear", "src/stdgpu/impl/deque_detail.cuh:size", "src/stdgpu/impl/deque_detail.cuh:valid"]}
{"id": "C84", "title": "a vector stays correct over any history of kernels and calls", "statement": "Start with createDeviceObject and let kernels (any number of threads calling push_back and pop_back concurrently) and sequences of calls by one caller follow each other in any order, however often the limits are exceeded. Then some list explains the results of all calls of all phases: no element is lost, duplicated or invented, size() and device_range() are exact after every phase, no access leaves the memory of the vector or meets another thread's access to the same element, and every kernel can finish. Only the number of calls rejected although the list has room or elements accumulates (C82).", "quantifier": "all capacities, histories of phases, thread counts, programs and interleavings", "why_tests_cant": "operation histories are unbounded in length and values", "anchors": ["src/stdgpu/impl/vector_detail.cuh:push_back", "src/stdgpu/impl/vector_detail.cuh:pop_back", "src/stdgpu/impl/vector_detail.cuh:clear", "src/stdgpu/impl/vector_detail.cuh:insert", "src/stdgpu/impl/vector_detail.cuh:erase", "src/stdgpu/impl/vector_detail.cuh:size", "src/stdgpu/impl/vector_detail.cuh:valid", "src/stdgpu/impl/vector_detail.cuh:device_range"]}
{"id": "C85", "title": "a deque, queue or stack over any history of kernels and calls", "statement": "Start with createDeviceObject and let kernels (any number of threads calling the push and pop functions at both ends concurrently) and sequences of calls by one caller follow each other in any order. Then some list, and the number by which the counter is off, explain the results of all calls of all phases: no element is lost, duplicated or invented, no access leaves the memory of the deque or meets another thread's access to the same element. As long as no push or pop is rejected after changing the counter (or as many pushes as pops per kernel), the deque behaves as a bounded list in all of it.", "quantifier": "all capacities, histories of phases, thread counts, programs and interleavings", "why_tests_cant": "operation histories are unbounded in length and values", "anchors": ["src/stdgpu/impl/deque_detail.cuh:push_back", "src/stdgpu/impl/deque_detail.cuh:push_front", "src/stdgpu/impl/deque_detail.cuh:pop_back", "src/stdgpu/impl/deque_detail.cuh:pop_front", "src/stdgpu/impl/deque_detail.cuh:clear", "src/stdgpu/impl/deque_detail.cuh:size", "src/stdgpu/impl/deque_detail.cuh:valid", "src/stdgpu/impl/deque_detail.cuh:device_range"]}
{"id": "C86", "title": "size(), empty() and full() called inside a kernel are exact up to the running calls", "statement": "While a kernel of pushes and pops runs on a vector, deque, queue or stack (after any history of kernels and calls), size() at any moment is the size before the kernel plus what the returned calls have changed, off by at most the number of pushes and pops that are running, and clamped to [0, capacity]; empty() and full() answer consistently with it. On an unordered_map/unordered_set, size() is likewise off by at most the running inserts and erases, and never smaller than the number of stored values.", "quantifier": "all capacities, histories, thread counts, programs and moments of all interleavings", "why_tests_cant": "the number of interleavings is unbounded; a test run only ever observes one schedule", "anchors": ["src/stdgpu/impl/vector_detail.cuh:size", "src/stdgpu/impl/vector_detail.cuh:empty", "src/stdgpu/impl/vector_detail.cuh:full", "src/stdgpu/impl/deque_detail.cuh:size", "src/stdgpu/impl/deque_detail.cuh:empty", "src/stdgpu/impl/deque_detail.cuh:full", "src/stdgpu/impl/unordered_base_detail.cuh:size"]}
{"id": "C87", "title": "the array functions construct and destroy every element exactly once", "statement": "createHostArray and createDeviceArray construct count objects, one per element; destroyHostArray and destroyDeviceArray call the destructor of every element (of a type with a destructor to call) once. So in any history of these calls every object that was constructed is held by one array or was destroyed exactly once. Types with a trivial destructor can be copied with the copy functions as well without any undefined call.", "quantifier": "all histories of array calls, counts and orders of the parallel iterations, device-compiled or not", "why_tests_cant": "operation histories are unbounded in length and values", "anchors": ["src/stdgpu/impl/memory_detail.h:createDeviceArray", "src/stdgpu/impl/memory_detail.h:createHostArray", "src/stdgpu/impl/memory_detail.h:destroyDeviceArray", "src/stdgpu/impl/memory_detail.h:destroyHostArray", "src/stdgpu/impl/memory_detail.h:allocate_filled", "src/stdgpu/impl/memory_detail.h:deallocate_filled", "src/stdgpu/impl/memory_detail.h:destroy", "src/stdgpu/impl/memory_detail.h:copyCreateHost2HostArray"]}
{"id": "C88", "title": "valid() finds every broken linked list", "statement": "The part of valid() that walks the linked lists of an unordered container (loop_free) answers true exactly if the lists of all buckets end and no entry is in two of them. It comes to an end for every state of the links, circles included, makes no access outside of the arrays, has no data race, and its answer does not depend on how the parallel iterations are distributed or interleaved.", "quantifier": "all offset arrays whose links stay inside the container, distributions of the buckets to threads and interleavings", "why_tests_cant": "the number of interleavings is unbounded; a test run only ever observes one schedule", "anchors": ["src/stdgpu/impl/unordered_base_detail.cuh:loop_free", "src/stdgpu/impl/unordered_base_detail.cuh:count_visits", "src/stdgpu/impl/unordered_base_detail.cuh:less_equal_one", "src/stdgpu/impl/unordered_base_detail.cuh:valid"]}
{"id": "C89", "title": "valid() certifies what an unordered container answers", "statement": "If valid() of an unordered container returns true - whatever happened to its memory before - then every lookup ends and is right: find(k) returns the position of the one stored value whose key equals k, or end() if there is none; stored keys are pairwise different, size() is the number of stored values, the lists of the buckets share no entry, no lock is left behind, and the next insertions keep what is stored.", "quantifier": "all contents of a container's arrays, hash functions and key equalities", "why_tests_cant": "2^64 inputs (and every width) cannot be enumerated", "anchors": ["src/stdgpu/impl/unordered_base_detail.cuh:valid", "src/stdgpu/impl/unordered_base_detail.cuh:values_reachable", "src/stdgpu/impl/unordered_base_detail.cuh:unique", "src/stdgpu/impl/unordered_base_detail.cuh:occupied_count_valid", "src/stdgpu/impl/unordered_base_detail.cuh:loop_free"]}
{"id": "C90", "title": "valid() of an unordered container always answers", "statement": "valid() of an unordered container returns for every content of the container's memory (lists running in circles and links leading outside the arrays included), and it returns true exactly if all links stay inside the arrays, the lists of the buckets end and share no entry, find() of every stored value leads to its entry, size() is the number of stored values, no lock is held and the list of free entries is valid.", "quantifier": "all contents of a container's arrays, hash functions and key equalities", "why_tests_cant": "2^64 inputs (and every width) cannot be enumerated", "anchors": ["src/stdgpu/impl/unordered_base_detail.cuh:valid", "src/stdgpu/impl/unordered_base_detail.cuh:offset_range_valid", "src/stdgpu/impl/unordered_base_detail.cuh:loop_free", "src/stdgpu/impl/unordered_base_detail.cuh:unique", "src/stdgpu/impl/unordered_base_detail.cuh:size"]}
{"id": "C91", "title": "valid() certifies what a vector does next", "statement": "If valid() of a vector returns true - whatever happened to its memory before, as long as the slots marked occupied are the ones that hold elements - then device_range() and at() give the size() stored elements, and every later sequence of calls gives the results of the bounded list of these elements and keeps valid() true.", "quantifier": "all contents of a vector's arrays", "why_tests_cant": "2^64 inputs (and every width) cannot be enumerated", "anchors": ["src/stdgpu/impl/vector_detail.cuh:valid", "src/stdgpu/impl/vector_detail.cuh:occupied_count_valid", "src/stdgpu/impl/vector_detail.cuh:size_valid", "src/stdgpu/impl/vector_detail.cuh:pop_back"]}
{"id": "C92", "title": "valid() certifies what a deque does next", "statement": "If valid() of a deque (queue, stack) returns true - whatever happened to its memory before, as long as the slots marked occupied are the ones that hold elements - then operator[](n) is the n-th of the size() stored elements, and every later sequence of calls within the contract gives the results of the bounded list of these elements and keeps valid() true.", "quantifier": "all contents of a deque's arrays and positions", "why_tests_cant": "2^64 inputs (and every width) cannot be enumerated", "anchors": ["src/stdgpu/impl/deque_detail.cuh:valid", "src/stdgpu/impl/deque_detail.cuh:occupied_count_valid", "src/stdgpu/impl/deque_detail.cuh:size_valid", "src/stdgpu/impl/deque_detail.cuh:pop_front", "src/stdgpu/impl/deque_detail.cuh:push_back"]}
