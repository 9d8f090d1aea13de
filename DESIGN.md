# Formal model of stotko/stdgpu in Rocq (Coq 8.16.1)

`rocq/theories/` holds, per area, four kinds of files:

* `XModel.v`   executable Gallina model, every definition cites the lines of /repo it models and
               states its simplifications; no proofs.
* `XSpec.v`    the small independent specification (lists, finite maps, multisets ...) used in the statements.
* `XProofs.v`  invariants and lemmas.
* `XProps.v`   only the property theorems (`Theorem C.._... Proof. exact lemma. Qed.`), each followed
               by `Print Assumptions` and a concrete `Example` that meets its hypotheses.

Naming: `C<nn>_...` proves the full property, `..._partial` proves a part of it, `..._refuted`
proves that the unchanged code violates the stated property (with a concrete witness).

## Modelling conventions

* Undefined behaviour / violated precondition is a distinct outcome (`UB`), never a default value.
  A loop that may not terminate runs on fuel and has the distinct outcome `Hang`.
* Machine integers: the `stdgpu` bit functions, hashing, `size()` counters (32-bit `int`) and ring
  counters are modelled with explicit wrap-around where the property is about them; otherwise `Z`.
  The concurrent models use unbounded `Z` for the shared counters; C76 proves that 32-bit counters
  make no difference for capacity + threads up to INT_MAX.
* Concurrency: sequentially consistent interleaving of atomic steps. A thread is a program counter
  plus its locals and the remaining calls. Each atomic access, each plain access of shared memory is
  one step, so data races are visible and excluded as an invariant, not assumed away. The weak
  memory model of the GPU is NOT modelled; fences are modelled only as the trace of C58.
* Layering: the bitset over blocks is proved (C12, C14) to be an array of atomic booleans; the mutex
  array, vector, deque and unordered container models then use `list bool` for `_occupied`/`_locks`.
* Elements are values of an arbitrary type; object lifetime (constructed / destroyed) is modelled
  with `option`: `None` is raw memory, reading or destroying it is a lifetime violation.

## Property by property plan

| id | modelled | proof |
|----|----------|-------|
| C01-C06 | bit_detail.h functions on `Z` with explicit `mod 2^w` | bit-wise reasoning with `Z.testbit`, induction over the doubling loop |
| C07 | `bit_cast` loops over bytes | byte list equality |
| C08 | openmp/cuda/hip inc_mod, dec_mod steps with the `arg-1` convention | arithmetic, induction over op lists |
| C09, C10 | atomic cell, all RMW operations, thread interleavings | generic linearization lemma for interleavings; ticket corollary |
| C11 | CAS retry loop as a step machine with arbitrary interference | invariant over interference traces |
| C12-C14 | bitset blocks, reference ops, kernels | refinement to `list bool`; interleavings |
| C15-C17 | mutex_array over bits, multi try_lock recursion | invariant / induction over the lock list |
| C18, C30, C53 | vector sequential model with lifetimes, 32-bit size | refinement to bounded list |
| C19-C23 | vector concurrent step machine; HIP lane-serialised scheduler | per-slot counting invariant, AG EF completion; refuted by witness traces |
| C24-C29 | deque sequential and concurrent | refinement; ghost unbounded begin/end; witnesses |
| C31-C36, C40, C55 | unordered_base sequential model, hashing, creation sizes | refinement to finite map, chain invariant |
| C34, schedules | `collect_step` (CollectModel.v): the kernel of device_range() access by access, threads with any distribution of the indices | invariant (CollectProofs.v): ticket j belongs to the j-th taken position; pending positions ++ taken positions = occupied positions; a ticket is written or held by one thread |
| C37-C39 | unordered_base concurrent step machine | invariant for insert-only; witness traces for insert+erase |
| C41 | stdgpu::hash of scalar types, float bit patterns | integer arithmetic; witness for +0/-0 |
| C42-C47 | memory.cpp manager, allocate / deallocate / memcpy | induction over histories; interleaving witness |
| C48 | array create/copy/destroy | round trip |
| C49, C50 | for_each_index with arbitrary order, reduction trees | permutation invariance |
| C51, C56, C57 | algorithm, limits, iterators | direct |
| C52 | HIP warp_convergent_execute loop over the mask | induction over the mask |
| C54 | div_up, number of blocks | arithmetic |
| C58 | fence placement of each atomic operation | trace functions, case analysis |
| C59 | the operators of atomic_ref as fetch operation plus recomputation | arithmetic, all widths and signedness |
| C60, C61 | createDeviceObject/destroyDeviceObject of every container as sequences of allocator calls on the memory model; histories of creations and destructions | invariant: heap = blocks of the live objects |
| C62 | UConcModel.v steps of erase and find with the value kept by a trivial destructor (`estep`) | inductive invariant relating every state to the lists at the start (unlinked set, knowledge of each thread, lock and count balance) |
| C63 | phases: `u_run`, insert kernels (`ustep`), erase kernels (`estep`) | the representation invariant is re-established at the end of every kernel; induction over the history |
| C64 | find and erase with destructors that end the lifetime | witness trace |
| C65 | `ustep` / `estep` (UConcModel.v, UEraseModel.v) and one thread running alone (`solo`, UProgSpec.v) | from the invariants of C37/C62: every list is walkable, so every search of a lone thread ends; pops/pushes of the excess list finish (C18-style `can_finish`), then the lock holders, then the remaining calls one by one; one erasing thread among any number of inserting ones: from the invariant of C67 (UOneDefs.v) the same way, with a rank for the walks (UOneProg.v, UOneProg2.v) |
| C66 | `insert_range`/`erase_range`: the calls of a range distributed over threads in any way (URangeModel.v) | from the phases of C63 plus an invariant that every call returns a result of its kind |
| C67 | `estep` with inserts, erases and lookups in one kernel | witness traces; positive part: with at most one erasing thread per kernel (any number of inserting and searching ones) every access stays inside the arrays and on constructed values, and nothing is lost or duplicated in the arrays: an invariant without bucket structure (every entry in at most one list or in one hand, the links acyclic from the entries the one eraser can meet, the free list a permutation of the free excess entries; UOneVec to UOneTop). Missing, because refuted: that the inserted keys are found afterwards, and defined accesses with two erasing threads |
| C68 | `estep`, one inserting and one erasing thread | invariant over the lists with the entries in the hands of the two calls (UMixShape, UMixKnow, UMixCore), a trace of the calls' effects into which refused calls are put afterwards (UMixIns, UMixErs), and cuts for all earlier states (UMixTop) |
| C69 | `estep`, lookups next to one inserting and one erasing thread | witness trace |
| C70 | device_unique_object variables over the objects of C60 (UniqueModel.v); `owners`/`scopes` as the specification (UniqueSpec.v) | invariant relating variables, owners and the tracked blocks of C60 |
| C71 | device_begin/end, size, device_range/host_range, counted, transformed and indexed ranges over the memory of C48 (RangeModel.v) | address arithmetic over the array invariant |
| C72 | find_impl/contains_impl/count_impl with a key-like object (ULikeModel.v) | the walk of C35 with the comparison against the object |
| C73 | `qstep (dctl cap)` (SlotModel.v, DequeModel.v), push_back and pop_front only; `fifo`/`bounded`/`in_order` (FifoSpec.v) | values and pops in the order in which they claim slots; a pop that claims before its push is put right after it (FifoProofs, FifoQueue); one producer/one consumer without a bound on the calls (FifoPair); witness traces with a complete search of the orders (FifoRefute) |
| C74 | `qstep (vctl cap)`, `qstep (dctl cap)`, push_back or pop_back only; `lifo` (FifoSpec.v) | order of the claims, then the refused calls, the counted calls without a slot in between (FifoStack); one pusher/one popper on a vector, linearised at the claims (FifoVPair); witness traces (FifoRefute, FifoRefute2) |
| C75 | `qstep (vctl cap)`, `qstep (dctl cap)`, all calls of one kind | a call that claimed a slot finds it free/occupied and unlocked, so every step lowers a measure (OneKind); begin-end distance as ghost invariant; size counter counts the grants; also under `hip_step` for C23 |
| C76 | `vctl32`, `dctl32`, `ustep32`, `estep32` (CounterModel.v): the same machines on 32-bit counters | counter plus the calls entitled to change it is bounded by capacity + threads; `run` of the two machines is equal for every schedule (CounterProofs) |
| C77 | `plain_access`, `races` (URaceModel.v): the access to values, offsets and free-list elements that a thread makes next in the machines of C37/C62 | from the invariants of C37/C62 (owner of every entry, locks, slots of the free list): only offsets can be raced on, by the one step that links or unlinks an entry (URaceProofs); witness traces for these and, in mixed kernels, for values and the free list; in any mixture (C77_mixtures_partial, from `ainv`) values have one writer at a time, which writes entries that hold no value, and free-list races are on element 0 with a beginning pop_back |
| C78 | `estep` (UEraseModel.v) started from a state in which the buckets of the used keys have no list and hold the used key only (`separate`, USepSpec.v) | invariant `sinv` (USepProofs.v): no offset and no excess entry changes, each bucket is a cell guarded by its lock, the linearization `h` grows at the step that writes or reads `_occupied` (erase, refused calls, lookups) or sets it (insert); ghost sequence with real-time cuts over `visited` runs; completion by a rank per call (USepProg.v); lookups at the moment they read `_occupied` (USepFind.v) |
| C79 | `ustep`/`estep` (UConcModel.v, UEraseModel.v), any programs (`any_kernels`, UAnySpec.v) | invariant `ainv` (UAnyDefs.v) without any statement about the collision lists: every entry is occupied, free, or held by one thread (through its lock, or popped from the free list); the free list is the vector model of C16 with its invariant; the multiset of stored values plus removed pairs (value, key) equals the initial values plus those of the inserts that set `_occupied`; the counter is off by the calls between their `_occupied` write and their counter update. One case per access (UAnyStep.v) |
| C80 | as C79, with programs whose erases `spare` the key (UKeepSpec.v) | on top of `ainv`: the entries from the bucket to the position of the key stay linked and occupied (`kept`, UKeepProofs.v). No thread ever writes an inner link of this path: an insert only writes the link of an entry it saw at the end of a list, an erase only that of the predecessor of an entry with its own key (facts about the thread that no other thread can break, `wf`); lookups of the key stay on the path (`kw`); wait-freedom by a rank along the path (UKeepTop.v) |
| C81 | as C79, with the states passed (`visited`, UMixSpec.v; `effects`, `in_call`, `seen_at`, `no_room`, UTruthSpec.v) | on top of `ainv`: the content changes only when an insert sets or an erase clears the bit of an entry whose value it knows (`tgood`, one case per access, UTruthProofs.v), which gives the order; a thread that has read the bit of an entry as set and is about to read its value knows that the value is stored, being written by a running insert, or was stored since (`fresh`) |
| C82 | `qstep (vctl cap)` (VectorConc models) up to rest, then `vec_run` (VectorModel.v) from the state reached (`as_vec`) | the state at rest is that of a clean vector except for the counter, which is off by the number of rejected calls (RejectProofs.v); simulation between the two (`near`, VDebtProofs.v): all functions but push_back/pop_back/valid read the counter only through size(), which clamps; the specification is the list of C18 and a debt (`debt_run`, VDebtSpec.v) |
| C83 | `qstep (dctl cap)` (DequeModel.v) up to rest, then `deq_run` from the state reached (`as_deq`) | as C82 (`dnear`, DDebtProofs.v), but the counter of a deque decides about slots without regard to begin and end, so the specification (`off_run`, DDebtSpec.v) has cases in which a call waits forever or clear() is undefined; the state at rest is a ring between begin and end because no slot is occupied twice (`gm_span`) |
| C84 | `history_run` (VHistSpec.v): phases of `qstep (vctl cap)` from the vector as it is (`as_shared`) and of `vec_run`, alternating | the slot invariant (SlotProofs.v) is established from every state `drep` describes (VDebtProofs.v), whatever the debt, and a kernel at rest gives a `drep` state again (`shared_rest`); induction over the history |
| C85 | `dhistory_run` (DHistSpec.v): phases of `qstep (dctl cap)` from the deque as it is (`d_as_shared`) and of `deq_run`, alternating | as C84 from the states `orep` describes (DDebtProofs.v): the slot invariant does not mention the size counter, so it holds for a start with a wrong one (`goff_inv`); balanced histories stay at k = 0, where the state is one of DequeProofs.v except for its log |
| C86 | `v_size (as_vec s)`, `d_size (as_deq s)`, `c_count s` at any reachable state of `qstep`/`kernel_step` (one load) | RejectProofs.v counts a thread's share of the counter (settled, running, rejected): sum over threads; unordered: the count invariant of UAnyDefs.v per program counter (USizeProofs.v) |
| C87 | LifeModel.v: the constructor and destructor calls of the array functions; an element is the object it was constructed as, copied by memcpy | counting: constructed objects = destroyed ++ held, as a permutation, for every order of the loops; witnesses for every count |
| C88 | `visit_step` (LoopModel.v): the kernel of loop_free access by access; `entries`, `lists_separate` (LoopSpec.v) | invariant (LoopProofs.v): a flag counts the visits of its entry, the visits of an index are the beginning of its list, a finished index has visited its whole list or an entry has been visited twice; a measure for the end; C33 for the kernel from the representation of reachable containers |
| C89 | `u_valid` (UnorderedModel.v) on any content of the arrays, not only reachable ones; `arrays_ok`, `holds_at` (ValidSpec.v) | each check of valid() read back (ValidProofs.v): values_unique gives the positions of lookups, loop_free (C88) and offset_range_valid their termination; the free list is refuted; with an intact free list (`free_ok`) the representation invariant is rebuilt from valid() alone (ValidNext.v), so all later calls are as on a reachable container |
| C90 | the same `u_valid`, with the order of its checks and the short-circuit `&&` (1207-1217): a check runs only if those before it held | every check total under the ones before it (ValidEnds.v): circles end because every step marks an unmarked entry, lookups end because the lists are separate; a counter out of range is refuted |
| C91 | `v_valid` (VectorModel.v) on any content of the arrays; `slots_ok`, `no_gap` (VValidProps.v) | the representation invariant of C18 is rebuilt from valid() (VValidProps.v): the occupied bits are a prefix of length size(); gaps are refuted |
| C92 | `d_valid` (DequeModel.v) on any content of the arrays and positions; `slots_ok`, `ring_ok`, `slot_nr` (VValidProps.v, DValidProps.v) | read from `_begin` on, the arrays are those of C91; the representation invariant of the deque is rebuilt and run_drep (C19) applies; wrong positions are refuted |

## Trusted base

* The kernel of Coq 8.16.1 (including `vm_compute`, used to run concrete witnesses and examples).
* Axioms: none. Every property theorem is followed by `Print Assumptions` and prints
  `Closed under the global context`. `vcheck` additionally lists seven constants
  `Coq.ssr.ssrunder.Under_rel.*`: they are fields of a sealed module of Coq's own ssreflect library
  that std++ loads; no theorem here depends on them.
* Libraries used: Coq's standard library and std++ (definitions and proved lemmas only).
* The faithfulness of the model to the C++ text: read by hand, file and line cited at every definition.
  What is assumed about the world below the code: malloc/free/memcpy of the backend, the hardware atomics
  and `omp critical` / `omp atomic`, thrust's parallel loops (each index exactly once, any order),
  std::map and std::mutex.

### Modelled

bit_detail.h; algorithm_detail.h; numeric_detail.h; atomic_detail.cuh and the three backends' atomic files;
bitset_detail.cuh; mutex_detail.cuh; vector_detail.cuh; deque_detail.cuh; queue_detail.cuh; stack_detail.cuh;
unordered_base_detail.cuh (unordered_map/unordered_set are wrappers); memory.cpp; the arrays, allocators and
uninitialized algorithms and device_unique_object of memory_detail.h; ranges_detail.h; functional_detail.h (hash of integer, enum, float, double);
limits (integer types); array iterators and insert iterators of iterator_detail.h; hip/execution.h.

### Not modelled, or simplified

* The weak memory model of the GPU: interleavings are sequentially consistent. C58 is about the fences only.
* In the concurrent container machines counters are unbounded integers; C76 proves that the machines on 32-bit counters run identically as long as capacity + threads (element count of unordered containers: count + calls) is at most INT_MAX.
* `long double`: `hash<long double>` and the rounding in `expected_collisions` (exact rationals instead).
* Floating point numbers appear only as bit patterns (hash) or through an abstract equality (compare_exchange);
  floating point limits are not modelled. Integer types are those of LP64 Linux.
* Kernel launches, streams, execution policies: a policy is an arbitrary order of the parallel iterations.
* printf warnings; exceptions; compile-time overload resolution.
* MemoryModel.v describes array elements by their bytes, LifeModel.v (C87) by the object they were constructed as; there is no model
  with both. What constructors and destructors of the element type do is not modelled.

## Properties that are false of the code (proved counterexamples)

| id | finding |
|----|---------|
| C09 | OpenMP: `omp critical` (exchange, CAS, min, max, inc/dec_mod) and `omp atomic` (add, sub, and, or, xor) do not exclude each other: mixing them on a cell loses updates |
| C19, C25 | `pop` copies `_data[0]` on entry without a lock: data race with slot 0 |
| C22 | a push/pop rejected after the counter access leaves `_size` off by one (exactly: at rest `_size` = stored elements + rejected pushes - rejected pops, RejectProofs.v) |
| C23 | HIP lane-serialised execution: a wavefront of pushing lanes and a wavefront of popping lanes wait for each other forever, each for a lane the other one holds back (needs pushes and pops in one kernel: if all calls are of one kind, C23_same_kind_* prove completion) |
| C24 | deque `at(n)` checks the occupied bit of the unwrapped position: contract violation on a wrapped deque; capacity INT_MAX overflows |
| C27 | deque: after a transient overflow `_begin`/`_end` drift and a later pop never returns |
| C28 | device_range of a deque of capacity INT_MAX overflows |
| C34 (observation) | two calls of device_range() const on one container at once share `_range_indices_end`: values are listed twice (C34_two_calls_overlap) |
| C36 | n distinct keys need not fit (constant hash); capacities beyond 2^30+64 are rejected/UB; float rounding beyond 2^24 gives fewer buckets than elements |
| C37 | two inserts racing for the last excess entry leave `valid()` false and lose an excess entry |
| C38 | erase(1), insert(9), insert(9) can store key 9 twice |
| C39 | find can miss a key that is stored during the whole call (entry erased and reused for another bucket) |
| C41 | hash(+0.0) differs from hash(-0.0) although they compare equal |
| C43 | a pointer registered for two memory types is reported with the device one; re-registration is ignored |
| C45 | the range check accepts negative byte counts and overlapping ranges |
| C46 | two threads deallocating the same block can both pass the check and free twice |
| C47 | a failed allocation (OpenMP) is counted and registers nullptr; the second one violates the contract |
| C53 | the result object of pop is constructed twice without a destruction in between |
| C58 | an acquire load fences before its access, a release store after it |
| C61 | unordered_map/unordered_set: a second destroyDeviceObject frees three blocks again, by then possibly those of another container |
| C64 | find/contains during an erase of the same key can read a value already destroyed (try_erase destroys it while a lookup that saw the entry occupied has not read the key yet) |
| C67 | kernels mixing inserts and erases of different keys: an insert can append its value to the list of another bucket (reported as inserted, never found again), and an erase can take a wrong entry for the predecessor, after which a lookup reads outside the arrays; the positions compared under the locks may have been erased and reused in another bucket (ABA) |
| C69 | a lookup next to one inserting and one erasing thread can report end() for a key that is stored all the time (an entry it stands on is erased and reused at the end of another list) |
| C73 | queue: when more is pushed than the ring has slots, a pop that has claimed a slot and sleeps can be overtaken by a later pop of the same slot: one thread pops 11 before 10 although 10 was pushed long before; with several popping threads a pop can return false although the queue is never empty; with two producers and one popper a push can overtake a sleeping one in the same way |
| C74 | vector and stack: an element can be popped after one that lay below it (a push waits for a slot whose old element two pops have claimed); on a full stack, one push and one pop suffice: the pop has decremented the size but not the end, the push goes around the ring, and the pop returns the bottom element |
| C77 | `_offsets` is an array of plain `index_t` (unordered_base.cuh 528), read without lock by find/insert/erase (unordered_base_detail.cuh 669-671, 922-924, 940-943) while an insert (786) or an erase (876, 879) writes it: a data race already in kernels of inserts and lookups, or of erases and lookups; in mixed kernels also the values (661 against 777) and the free list (vector_detail.cuh 243 against 210-212) |
| C81 | (not a violation of the statement) a lookup can find a value that no insert has made visible yet: it reads that an entry is occupied, the entry is erased, an insert writes its value there, the lookup reads this value; the next lookup by the same thread returns end() although nobody erased the key (`C81_ex`) |
| C82 | vector::clear() returns at once if empty() (vector_detail.cuh 592-595): after more rejected pops than pushes the negative counter of an empty vector survives clear(), valid() stays false and the next push_back calls return false although the vector is empty (`C82_clear_of_empty_refuted`) |
| C83 | deque (queue, stack): after a rejected concurrent call the size counter stays wrong, and later calls of a single caller go wrong: push_back waits forever for a slot that is never freed (more rejected pops), pop waits forever for an element (more rejected pushes), size() is 0 and clear() does nothing although an element is stored, clear() destroys a slot that holds no object, or destroys none of the stored elements and leaves valid() true (`C83_push_hangs_refuted`, `C83_pop_hangs_refuted`, `C83_clear_forgets_elements_refuted`) |
| C87 | createDeviceArray outside of device-compiled code fills the device array with bytes of objects it destroys before returning; destroyDeviceArray destroys them a second time. Arrays made by the copy functions share their elements with the source: destroying both destroys every element twice |
| C88 | loop_free (valid()) has a data race on containers with an entry in two lists: `_flags[linked_list] > 1` is a plain read next to another thread's atomic addition |
| C89 | valid() of an unordered container does not check the positions in its list of free entries: with an occupied entry in that list it returns true, and the next insertion overwrites a stored value (C89_next_insert_refuted) |
| C90 | valid() of an unordered container whose element counter is out of range violates the STDGPU_ENSURES of size() instead of returning false (C90_count_refuted) |
| C91 | valid() of a vector does not check that the elements lie in the first size() slots: with an element behind an empty slot it returns true, and pop_back() waits for ever (C91_gap_refuted) |
| C92 | valid() of a deque checks neither begin/end nor the order of the occupied slots: with begin at an empty slot it returns true, front() reads the empty slot and pop_front() waits for ever (C92_begin_refuted); with end at an occupied slot push_back() does (C92_end_refuted) |

Where a property fails only in part, the part that holds is proved as `..._partial`.

## Seeded bugs

`seeded/LOG.jsonl` records mutations of the model (run outside /verif), the theorems that stopped
proving and the theorems added or tightened because a mutation survived.
