(** The memory properties (C42-C48), stated on the model of MemoryModel.v. *)
From Verif Require Import Base Conc MemoryModel MemorySpec MemoryProofs MemoryArrayProofs MemoryConcProofs MemoryFinalProofs.

(** C42: for every history of calls (arbitrary sizes, pointers and types; copies with non-negative size and without overlap) on a
    backend that does not fail, every call returns, the reported counts are the numbers of successful calls, and their difference is
    the number of live blocks, per memory type. *)
Theorem C42_counts_match_history : forall malloc, malloc_ok malloc -> never_fails malloc -> forall ops, Forall mop_ok ops ->
  exists s rs, mem_run malloc mem0 ops = Ret (s, rs) /\ results_ok book0 ops rs /\
    let b := book_after book0 ops rs in forall t,
      allocation_count s t = Z.of_nat (n_alloc b t) /\ deallocation_count s t = Z.of_nat (n_dealloc b t) /\
      allocation_count s t - deallocation_count s t = Z.of_nat (live_count b t).
Proof. exact history_counts. Qed.
Theorem C42_rejected_calls_change_nothing : forall malloc, malloc_ok malloc -> never_fails malloc -> forall s b, reachable_mem malloc s b ->
  (forall n t, n <= 0 \/ t = invalid -> allocate malloc s n t = Ret (s, 0)) /\ (forall p t, ~ known (live b) p t -> deallocate s p t = Ret s).
Proof. exact rejected_calls. Qed.
(** the same for threads that free only what they own: whenever no call is active the difference of the counts is the number of owned blocks *)
Theorem C42_counts_with_threads : forall malloc, malloc_ok malloc -> never_fails malloc -> forall progs s ls, owner_frees progs ->
  reach (mem_tstep malloc) (mem0, mem_threads progs) (s, ls) -> (forall th, th ∈ ls -> mt_pc th = PIdle) ->
  forall t, allocation_count s t - deallocation_count s t = Z.of_nat (length (owned ls t)).
Proof. intros malloc Hm Hnf progs s ls Ho Hr. exact (proj2 (no_double_free malloc Hm Hnf progs s ls Ho Hr)). Qed.
Print Assumptions C42_counts_match_history.
Print Assumptions C42_rejected_calls_change_nothing.
Print Assumptions C42_counts_with_threads.
Example C42_malloc : malloc_ok first_fit /\ never_fails first_fit.
Proof. exact first_fit_ok. Qed.
Definition c42_ops : list mop :=
  [MAlloc 16 device; MAlloc 0 device; MAlloc 4 invalid; MAlloc 8 host; MDealloc 8 host; MDealloc 8 device; MDealloc 8 device; MDealloc 77 device; MCount device; MCount host].
Example C42_ex : Forall mop_ok c42_ops /\ exists s, mem_run first_fit mem0 c42_ops = Ret (s, [MPtr 8; MPtr 0; MPtr 0; MPtr 24; MUnit; MUnit; MUnit; MUnit; MPair 1 1; MPair 1 0]).
Proof. split; [repeat constructor|]. eexists. vm_compute. reflexivity. Qed.
Example C42_threads_ex : owner_frees [[CAlloc 16 device; CFree 0]; [CAlloc 8 device]] /\
  exists s ls, reach (mem_tstep first_fit) (mem0, mem_threads [[CAlloc 16 device; CFree 0]; [CAlloc 8 device]]) (s, ls) /\ (forall th, th ∈ ls -> mt_pc th = PIdle) /\
    allocation_count s device = 2 /\ owned ls device = [24].
Proof.
  split. { intros p op H1 H2. repeat (apply elem_of_cons in H1 as [-> | H1]; [repeat (apply elem_of_cons in H2 as [-> | H2]; [exact I|]); inversion H2|]). inversion H1. }
  eexists _, _. split; [apply (run_reach (mem_tstep first_fit) [0; 1; 0; 1; 0; 0; 0]%nat); vm_compute; reflexivity|]. split; [|split; vm_compute; reflexivity].
  intros th H. repeat (apply elem_of_cons in H as [-> | H]; [reflexivity|]). inversion H.
Qed.

(** C43, what holds: in every state reached by a history of calls, a pointer that is registered for exactly one memory type is
    reported with the size and the type of that registration, an unregistered one with 0 and invalid; size<T> is the number of
    elements if the bytes are divisible by sizeof(T), 0 otherwise. *)
Theorem C43_sizes_and_types_partial : forall malloc, malloc_ok malloc -> never_fails malloc -> forall s b p, reachable_mem malloc s b ->
  (forall n t, t <> invalid -> (p, n, t) ∈ registered b -> (forall t', t' <> t -> ~ known (registered b) p t') -> size_bytes s p = n /\ get_dynamic_memory_type s p = t) /\
  ((forall t, ~ known (registered b) p t) -> size_bytes s p = 0 /\ get_dynamic_memory_type s p = invalid) /\
  (forall sz, 0 < sz -> array_size sz s p = (if size_bytes s p mod sz =? 0 then size_bytes s p / sz else 0)).
Proof. exact sizes_types. Qed.
Print Assumptions C43_sizes_and_types_partial.
Example C43_ex : exists s, mem_run first_fit mem0 [MRegister 100 24 host; MRegister 200 7 device; MRegister 200 9 device; MDeregister 200 host; MTypeOf 100; MSizeBytes 100; MSizeBytes 200; MDeregister 200 device; MTypeOf 200] =
    Ret (s, [MUnit; MUnit; MUnit; MUnit; MType host; MNum 24; MNum 7; MUnit; MType invalid]) /\ array_size 8 s 100 = 3 /\ array_size 16 s 100 = 0.
Proof. eexists. split; [vm_compute; reflexivity|]. split; vm_compute; reflexivity. Qed.
(** a pointer registered for both types is reported with the device registration, even if the host registration is the later one;
    and a second registration for the same type is ignored *)
Theorem C43_last_registration_refuted : exists s,
  mem_run first_fit mem0 [MRegister 100 8 device; MRegister 100 16 host; MSizeBytes 100; MTypeOf 100; MRegister 100 32 device; MSizeBytes 100] =
  Ret (s, [MUnit; MUnit; MNum 8; MType device; MUnit; MNum 8]).
Proof. eexists. vm_compute. reflexivity. Qed.

(** C44: in every reachable state the range check accepts [p, p + n), n > 0, exactly if it lies inside one live block of the type. *)
Theorem C44_range_check_exact : forall malloc, malloc_ok malloc -> never_fails malloc -> forall s b p n t, reachable_mem malloc s b -> 0 < n ->
  (contains_submemory (alloc_mgr s t) p n = true <-> inside_live b t p n).
Proof. exact range_check. Qed.
Print Assumptions C44_range_check_exact.
Definition c44_ops : list mop := [MAlloc 16 device; MAlloc 8 device; MAlloc 8 host; MDealloc 8 device; MAlloc 40 device].
Example C44_ex : exists s b, reachable_mem first_fit s b /\ inside_live b device 26 6 /\ contains_submemory (alloc_mgr s device) 26 6 = true /\
  contains_submemory (alloc_mgr s device) 26 7 = false /\ contains_submemory (alloc_mgr s host) 26 6 = false.
Proof.
  eexists _, _. split; [exists c44_ops; eexists; split; [repeat constructor|split; [vm_compute; reflexivity|reflexivity]]|]. split; [|split; [|split]; vm_compute; reflexivity].
  exists 24, 8. split; [|lia]. vm_compute. do 2 right. left.
Qed.

(** C45, what holds: in every reachable state, a checked copy of a non-negative number of bytes between ranges that do not overlap
    always returns, changes no byte outside the destination range and no bookkeeping; it changes nothing at all if one of the
    ranges is not inside a live block of its type, and otherwise copies every byte. *)
Theorem C45_checked_copies_partial : forall malloc, malloc_ok malloc -> never_fails malloc -> forall s b dst src n dt st,
  reachable_mem malloc s b -> 0 <= n < 2 ^ 63 -> dst + n <= src \/ src + n <= dst ->
  exists s', mem_copy s dst src n dt st false = Ret s' /\ alloc_mgr s' = alloc_mgr s /\ size_mgr s' = size_mgr s /\ heap s' = heap s /\
    (forall x, ~ dst <= x < dst + n -> bytes s' x = bytes s x) /\
    (~ (inside_live b dt dst n /\ inside_live b st src n) -> forall x, bytes s' x = bytes s x) /\
    (inside_live b dt dst n -> inside_live b st src n -> forall i, 0 <= i < n -> bytes s' (dst + i) = bytes s (src + i)).
Proof. exact checked_copy. Qed.
Print Assumptions C45_checked_copies_partial.
Example C45_ex : exists s b, reachable_mem first_fit s b /\ inside_live b device 24 8 /\ inside_live b host 36 8 /\ 24 + 8 <= 36.
Proof.
  eexists _, _. split; [exists [MAlloc 16 device; MAlloc 8 device; MAlloc 16 host]; eexists; split; [repeat constructor|split; [vm_compute; reflexivity|reflexivity]]|].
  split; [exists 24, 8|split; [exists 32, 16|lia]]; (split; [|lia]); vm_compute; [right|]; left.
Qed.
(** the range check accepts a negative number of bytes at an address inside a live block; the conversion to size_t then makes it a
    copy of almost 2^64 bytes.  It also accepts overlapping ranges, which memcpy does not. *)
Theorem C45_negative_size_refuted : exists s, mem_run first_fit mem0 [MAlloc 64 device] = Ret (s, [MPtr 8]) /\
  contains_submemory (alloc_mgr s device) 40 (- 10) = true /\ mem_copy s 40 40 (- 10) device device false = UB.
Proof. eexists. split; [vm_compute; reflexivity|]. split; vm_compute; reflexivity. Qed.
Theorem C45_overlap_refuted : exists s, mem_run first_fit mem0 [MAlloc 64 device] = Ret (s, [MPtr 8]) /\
  contains_submemory (alloc_mgr s device) 8 16 = true /\ contains_submemory (alloc_mgr s device) 12 16 = true /\ mem_copy s 8 12 16 device device false = UB.
Proof. eexists. split; [vm_compute; reflexivity|]. split; [vm_compute; reflexivity|]. split; vm_compute; reflexivity. Qed.

(** C46, what holds: without concurrency, after every history a deallocation returns (it never frees a block that is not in use,
    which would be UB) and a second deallocation of the same block is detected and changes nothing. *)
Theorem C46_sequential_partial : forall malloc, malloc_ok malloc -> never_fails malloc -> forall s b p t, reachable_mem malloc s b ->
  exists s', deallocate s p t = Ret s' /\ deallocate s' p t = Ret s' /\
    (known (live b) p t -> deallocation_count s' t = deallocation_count s t + 1) /\ (~ known (live b) p t -> s' = s).
Proof. exact freed_once. Qed.
(** With threads: no block is freed twice if every thread frees only blocks it owns. *)
Theorem C46_owned_blocks_partial : forall malloc, malloc_ok malloc -> never_fails malloc -> forall progs s ls, owner_frees progs ->
  reach (mem_tstep malloc) (mem0, mem_threads progs) (s, ls) -> forall th p, th ∈ ls -> mt_pc th <> PDoubleFree p.
Proof. intros malloc Hm Hnf progs s ls Ho Hr. exact (proj1 (no_double_free malloc Hm Hnf progs s ls Ho Hr)). Qed.
Print Assumptions C46_sequential_partial.
Print Assumptions C46_owned_blocks_partial.
Example C46_ex : exists s b, reachable_mem first_fit s b /\ known (live b) 24 device.
Proof.
  eexists _, _. split; [exists c44_ops; eexists; split; [repeat constructor|split; [vm_compute; reflexivity|reflexivity]]|]. exists 8. vm_compute. do 2 right. left.
Qed.
(** two threads deallocating the same block: both pass the check before either of them deregisters the block, and both free it *)
Theorem C46_concurrent_refuted : exists s ls th, reach (mem_tstep first_fit) (mem0, mem_threads [[CAlloc 16 device; CDealloc 8 device]; [CDealloc 8 device]]) (s, ls) /\
  ls !! 1%nat = Some th /\ mt_pc th = PDoubleFree 8 /\ allocation_count s device = 1 /\ deallocation_count s device = 2.
Proof.
  eexists _, _, _. split; [apply (run_reach (mem_tstep first_fit) [0; 0; 0; 1; 0; 1; 0; 1]%nat); vm_compute; reflexivity|]. split; [vm_compute; reflexivity|]. split; [reflexivity|]. split; vm_compute; reflexivity.
Qed.

(** C47, what holds: the first failure of the backend (malloc returns nullptr, as with OpenMP) after any history without failures
    returns nullptr, and leaves all blocks, bytes and registered sizes and the other memory type alone. *)
Theorem C47_first_failure_partial : forall before, malloc_ok before -> never_fails before -> forall s b, reachable_mem before s b ->
  forall malloc n t, 0 < n -> t <> invalid -> malloc (clock s) (heap s) n = 0 ->
  exists s', allocate malloc s n t = Ret (s', 0) /\ heap s' = heap s /\ bytes s' = bytes s /\ size_mgr s' = size_mgr s /\ (forall t', t' <> t -> alloc_mgr s' t' = alloc_mgr s t') /\
    allocation_count s' t = allocation_count s t + 1 /\ contains_memory (alloc_mgr s' t) 0 = true /\ mgr_valid (alloc_mgr s' t) = true.
Proof. intros before Hm Hnf s b Hr malloc n t. apply (first_failure malloc s b). exact (reachable_srep before Hm Hnf s b Hr). Qed.
Print Assumptions C47_first_failure_partial.
Example C47_ex : reachable_mem first_fit mem0 book0 /\ malloc_ok fails_first /\ fails_first (clock mem0) (heap mem0) 16 = 0.
Proof. split; [exists [], []; repeat constructor|]. split; [exact fails_first_ok|reflexivity]. Qed.
(** but the failed allocation is counted *)
Theorem C47_failure_counted_refuted : exists s, mem_run fails_first mem0 [MAlloc 16 device; MCount device; MDealloc 0 device; MCount device] =
  Ret (s, [MPtr 0; MPair 1 0; MUnit; MPair 1 0]).
Proof. eexists. vm_compute. reflexivity. Qed.
(** the entry for nullptr can never be removed: from then on, whatever is called and whatever the backend does, the counts of that
    type differ (check_allocation tools report a leak forever) *)
Theorem C47_never_balances_refuted : forall malloc t s, contains_memory (alloc_mgr s t) 0 = true -> mgr_valid (alloc_mgr s t) = true ->
  forall ops s' rs, mem_run malloc s ops = Ret (s', rs) -> 0 < allocation_count s' t - deallocation_count s' t.
Proof. intros malloc t s H1 H2 ops s' rs E. eapply null_unbalanced, null_run; [|exact E]. split; assumption. Qed.
Print Assumptions C47_never_balances_refuted.
(** a second failure violates the contract of the manager, and the range check now accepts ranges behind nullptr *)
Theorem C47_second_failure_refuted : mem_run (fun _ _ _ => 0) mem0 [MAlloc 16 device; MAlloc 16 device] = UB.
Proof. vm_compute. reflexivity. Qed.
Theorem C47_null_range_refuted : exists s, mem_run fails_first mem0 [MAlloc 16 device; MAlloc 16 device] = Ret (s, [MPtr 0; MPtr 8]) /\
  contains_submemory (alloc_mgr s device) 2 4 = true /\ mem_copy s 8 2 4 device device false = UB.
Proof. eexists. split; [vm_compute; reflexivity|]. split; vm_compute; reflexivity. Qed.

(** C48: after every history of array calls (for elements of any sizes), with and without device compilation, and for every order of
    the iterations of the fill loop, *)
(** createDeviceArray and createHostArray give a new array of n elements, all equal to v, whose size and type are reported, and
    change no other array; *)
Theorem C48_create_device : forall malloc, malloc_ok malloc -> never_fails malloc -> forall dc ord, (forall n, ord n ≡ₚ seq 0 n) ->
  forall ops s rs, sized ops -> arr_run malloc dc ord mem0 ops = Ret (s, rs) ->
  forall sz, 0 < sz -> forall n v, 0 < n -> n * sz < 2 ^ 63 -> Z.of_nat (length v) = sz ->
  exists s' p, create_device_array malloc dc ord sz s n v = Ret (s', p) /\ adds_array sz s s' p n device /\ (forall i, Z.of_nat i < n -> element_at sz s' p i v).
Proof. exact create_device_final. Qed.
Theorem C48_create_host : forall malloc, malloc_ok malloc -> never_fails malloc -> forall dc ord, (forall n, ord n ≡ₚ seq 0 n) ->
  forall ops s rs, sized ops -> arr_run malloc dc ord mem0 ops = Ret (s, rs) ->
  forall sz, 0 < sz -> forall n v, 0 < n -> n * sz < 2 ^ 63 -> Z.of_nat (length v) = sz ->
  exists s' p, create_host_array malloc ord sz s n v = Ret (s', p) /\ adds_array sz s s' p n host /\ (forall i, Z.of_nat i < n -> element_at sz s' p i v).
Proof. exact create_host_final. Qed.
(** a size that is not positive gives nullptr and changes nothing; *)
Theorem C48_create_nothing : forall malloc, malloc_ok malloc -> never_fails malloc -> forall dc ord, (forall n, ord n ≡ₚ seq 0 n) ->
  forall ops s rs, sized ops -> arr_run malloc dc ord mem0 ops = Ret (s, rs) ->
  forall sz, 0 < sz -> forall n v, n <= 0 -> - 2 ^ 63 <= n * sz ->
  create_device_array malloc dc ord sz s n v = Ret (s, 0) /\ create_host_array malloc ord sz s n v = Ret (s, 0).
Proof. exact create_nothing. Qed.
(** copying a device array to the host and back keeps all elements; *)
Theorem C48_round_trip : forall malloc, malloc_ok malloc -> never_fails malloc -> forall dc ord, (forall n, ord n ≡ₚ seq 0 n) ->
  forall ops s rs, sized ops -> arr_run malloc dc ord mem0 ops = Ret (s, rs) ->
  forall sz, 0 < sz -> forall p n, get_dynamic_memory_type s p = device -> 0 < n -> array_size sz s p = n ->
  exists s1 h s2 d, copy_create_array malloc sz s p n device host false = Ret (s1, h) /\ copy_create_array malloc sz s1 h n host device false = Ret (s2, d) /\
    adds_array sz s s1 h n host /\ adds_array sz s1 s2 d n device /\
    forall i v, Z.of_nat i < n -> Z.of_nat (length v) = sz -> element_at sz s p i v ->
      element_at sz s1 h i v /\ element_at sz s2 h i v /\ element_at sz s2 d i v /\ element_at sz s2 p i v.
Proof. exact round_trip. Qed.
(** destroying an array (also through a pointer to another element type) removes it and nothing else; *)
Theorem C48_destroy_device : forall malloc, malloc_ok malloc -> never_fails malloc -> forall dc ord, (forall n, ord n ≡ₚ seq 0 n) ->
  forall ops s rs, sized ops -> arr_run malloc dc ord mem0 ops = Ret (s, rs) ->
  forall sz, 0 < sz -> forall opt p, get_dynamic_memory_type s p = device ->
  exists s', destroy_device_array malloc dc sz opt s p = Ret s' /\ removes_array s s' p device.
Proof. exact destroy_device_final. Qed.
Theorem C48_destroy_host : forall malloc, malloc_ok malloc -> never_fails malloc -> forall dc ord, (forall n, ord n ≡ₚ seq 0 n) ->
  forall ops s rs, sized ops -> arr_run malloc dc ord mem0 ops = Ret (s, rs) ->
  forall sz, 0 < sz -> forall p, get_dynamic_memory_type s p = host ->
  exists s', destroy_host_array sz s p = Ret s' /\ removes_array s s' p host.
Proof. exact destroy_host_final. Qed.
(** and destroying a new array gives back the bookkeeping from before its creation. *)
Theorem C48_create_destroy : forall malloc, malloc_ok malloc -> never_fails malloc -> forall dc ord, (forall n, ord n ≡ₚ seq 0 n) ->
  forall ops s rs, sized ops -> arr_run malloc dc ord mem0 ops = Ret (s, rs) ->
  forall sz, 0 < sz -> forall opt n v, 0 < n -> n * sz < 2 ^ 63 -> Z.of_nat (length v) = sz ->
  exists s1 p s2, create_device_array malloc dc ord sz s n v = Ret (s1, p) /\ destroy_device_array malloc dc sz opt s1 p = Ret s2 /\
    heap s2 ≡ₚ heap s /\ (forall t, m_ptrs (alloc_mgr s2 t) = m_ptrs (alloc_mgr s t) /\ m_ptrs (size_mgr s2 t) = m_ptrs (size_mgr s t)) /\
    (forall x, in_block (heap s) x 1 = true -> bytes s2 x = bytes s x).
Proof. exact create_destroy. Qed.
Print Assumptions C48_create_device.
Print Assumptions C48_create_host.
Print Assumptions C48_create_nothing.
Print Assumptions C48_round_trip.
Print Assumptions C48_destroy_device.
Print Assumptions C48_destroy_host.
Print Assumptions C48_create_destroy.
Definition c48_ops : list (Z * aop) := [(4, ACreateDevice 3 [1; 2; 3; 4]); (2, ACreateHost 5 [7; 8]); (4, ACreateDevice 0 [0; 0; 0; 0]); (4, ACopyCreate 20 3 device host); (2, ADestroyHost 32); (4, ASize 20)].
Example C48_ex : sized c48_ops /\ exists s, arr_run first_fit false (seq 0) mem0 c48_ops = Ret (s, [MPtr 20; MPtr 32; MPtr 0; MPtr 42; MUnit; MNum 3]) /\
  get_dynamic_memory_type s 20 = device /\ element_at 4 s 20 2 [1; 2; 3; 4] /\ element_at 4 s 42 2 [1; 2; 3; 4].
Proof.
  split. { intros sz op H. repeat (apply elem_of_cons in H as [[= -> ->] | H]; [lia|]). inversion H. }
  eexists. split; [vm_compute; reflexivity|]. split; [vm_compute; reflexivity|].
  assert (Hj : forall j, (j < 4)%nat -> j = 0%nat \/ j = 1%nat \/ j = 2%nat \/ j = 3%nat) by (intros; lia).
  split; (split; [vm_compute; reflexivity|]); intros j H; destruct (Hj j H) as [-> |[-> |[-> | ->]]]; vm_compute; reflexivity.
Qed.
