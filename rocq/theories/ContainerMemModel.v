(** Model of the memory management of the containers: createDeviceObject and destroyDeviceObject of atomic, bitset, mutex_array,
    vector, deque, queue, stack and unordered_base, on top of the allocators of MemoryModel.v.  A container object is the bundle
    of its pointers (and of the sizes the code stores beside them).
    Simplifications: the arguments of the private constructors are evaluated from left to right (C++ leaves the order open);
    clear(), which destroyDeviceObject calls first if the elements have a destructor, only works on the memory the container
    has and is modelled in VectorModel/DequeModel/UnorderedModel; the same holds for vector_clear_iota at the end of the creation of
    unordered_base. *)
From Verif Require Import Base BitModel AlgoModel BitsetModel VectorModel UnorderedModel MemoryModel.

(** the handles *)
Record bitset_handle := { bh_blocks : Z; bh_size : Z }.
Record vector_handle := { vh_locks : bitset_handle; vh_occupied : bitset_handle; vh_size : Z; vh_data : Z }.
Record deque_handle := { dh_locks : bitset_handle; dh_occupied : bitset_handle; dh_size : Z; dh_begin : Z; dh_end : Z; dh_data : Z; dh_indices : Z }.
Record unordered_handle := { uh_occupied : bitset_handle; uh_count : Z; uh_excess : vector_handle; uh_locks : bitset_handle; uh_range_end : Z;
                             uh_values : Z; uh_offsets : Z; uh_indices : Z }.
(** sizeof(int) = sizeof(unsigned int) = sizeof(index_t) *)
Definition int_size : Z := 4.
(** bitset_default_type and mutex_default_type are unsigned int (bitset_fwd, mutex_fwd) *)
Definition default_bits : Z := 32.

Section containers.
  Context (malloc : nat -> list (Z * Z) -> Z -> Z) (device_compiled : bool) (ord : nat -> list nat).
  Definition zeros (sz : Z) : list Z := replicate (Z.to_nat sz) 0.

  (** atomic_detail.cuh 140-153 *)
  Definition atomic_create (sz : Z) (s : mem) : outcome (mem * Z) := allocate_filled malloc ord sz s 1 (zeros sz) device.
  (** atomic_detail.cuh 163-173 *)
  Definition atomic_destroy (sz : Z) (s : mem) (p : Z) : outcome (mem * Z) :=
    let! s := deallocate_filled sz s p 1 device in Ret (s, 0).

  (** bitset_detail.cuh 191-204; blocks of bpb bits *)
  Definition bitset_mem_create (bpb : Z) (s : mem) (size : Z) : outcome (mem * bitset_handle) :=
    let! n := number_bit_blocks bpb size in
    let! (s, p) := allocate_filled malloc ord (bpb / 8) s n (zeros (bpb / 8)) device in
    Ret (s, {| bh_blocks := p; bh_size := size |}).
  (** bitset_detail.cuh 214-226 *)
  Definition bitset_mem_destroy (bpb : Z) (s : mem) (h : bitset_handle) : outcome (mem * bitset_handle) :=
    let! n := number_bit_blocks bpb (bh_size h) in
    let! s := deallocate_filled (bpb / 8) s (bh_blocks h) n device in
    Ret (s, {| bh_blocks := 0; bh_size := 0 |}).
  (** mutex_detail.cuh 63-75, 83-91 *)
  Definition mutex_mem_create := bitset_mem_create.
  Definition mutex_mem_destroy := bitset_mem_destroy.

  (** vector_detail.cuh 41-62; sz = sizeof(T) *)
  Definition vector_mem_create (sz : Z) (s : mem) (capacity : Z) : outcome (mem * vector_handle) :=
    require 0 <? capacity in
    let! (s, locks) := mutex_mem_create default_bits s capacity in
    let! (s, occupied) := bitset_mem_create default_bits s capacity in
    let! (s, size) := atomic_create int_size s in
    let! (s, data) := safe_allocate malloc sz s capacity device in
    Ret (s, {| vh_locks := locks; vh_occupied := occupied; vh_size := size; vh_data := data |}).
  (** vector_detail.cuh 71-92; capacity() is _occupied.size() (551-556) *)
  Definition vector_mem_destroy (sz : Z) (s : mem) (h : vector_handle) : outcome (mem * vector_handle) :=
    let! s := safe_deallocate sz s (vh_data h) (bh_size (vh_occupied h)) device in
    let! (s, locks) := mutex_mem_destroy default_bits s (vh_locks h) in
    let! (s, occupied) := bitset_mem_destroy default_bits s (vh_occupied h) in
    let! (s, size) := atomic_destroy int_size s (vh_size h) in
    Ret (s, {| vh_locks := locks; vh_occupied := occupied; vh_size := size; vh_data := 0 |}).

  (** deque_detail.cuh 40-68 *)
  Definition deque_mem_create (sz : Z) (s : mem) (capacity : Z) : outcome (mem * deque_handle) :=
    require 0 <? capacity in
    let! (s, locks) := mutex_mem_create default_bits s capacity in
    let! (s, occupied) := bitset_mem_create default_bits s capacity in
    let! (s, size) := atomic_create int_size s in
    let! (s, begin) := atomic_create int_size s in
    let! (s, end_) := atomic_create int_size s in
    let! (s, data) := safe_allocate malloc sz s capacity device in
    let! (s, indices) := safe_allocate malloc int_size s capacity device in
    Ret (s, {| dh_locks := locks; dh_occupied := occupied; dh_size := size; dh_begin := begin; dh_end := end_; dh_data := data; dh_indices := indices |}).
  (** deque_detail.cuh 78-107 *)
  Definition deque_mem_destroy (sz : Z) (s : mem) (h : deque_handle) : outcome (mem * deque_handle) :=
    let! s := safe_deallocate sz s (dh_data h) (bh_size (dh_occupied h)) device in
    let! s := safe_deallocate int_size s (dh_indices h) (bh_size (dh_occupied h)) device in
    let! (s, locks) := mutex_mem_destroy default_bits s (dh_locks h) in
    let! (s, occupied) := bitset_mem_destroy default_bits s (dh_occupied h) in
    let! (s, size) := atomic_destroy int_size s (dh_size h) in
    let! (s, begin) := atomic_destroy int_size s (dh_begin h) in
    let! (s, end_) := atomic_destroy int_size s (dh_end h) in
    Ret (s, {| dh_locks := locks; dh_occupied := occupied; dh_size := size; dh_begin := begin; dh_end := end_; dh_data := 0; dh_indices := 0 |}).
  (** queue_detail.cuh 22-39 and stack_detail.cuh 22-39, for the default container *)
  Definition adapter_mem_create (sz : Z) (s : mem) (size : Z) : outcome (mem * deque_handle) :=
    require 0 <? size in deque_mem_create sz s size.
  Definition adapter_mem_destroy := deque_mem_destroy.

  (** unordered_base_detail.cuh 1257-1308; unordered_map_detail.cuh 405-419 and unordered_set_detail.cuh forward to it *)
  Definition unordered_mem_create (sz : Z) (s : mem) (capacity : Z) : outcome (mem * unordered_handle) :=
    require 0 <? capacity in
    let bucket_count := bucket_count_for capacity in
    let! excess_count := excess_count_for capacity in
    let total_count := bucket_count + excess_count in
    require total_count <=? INT_MAX in
    let! (s, occupied) := bitset_mem_create default_bits s total_count in
    let! (s, count) := atomic_create int_size s in
    let! (s, excess) := vector_mem_create int_size s excess_count in
    let! (s, locks) := mutex_mem_create default_bits s total_count in
    let! (s, range_end) := atomic_create int_size s in
    let! (s, values) := safe_allocate malloc sz s total_count device in
    let! (s, offsets) := allocate_filled malloc ord int_size s total_count (zeros int_size) device in
    let! (s, indices) := safe_allocate malloc int_size s total_count device in
    Ret (s, {| uh_occupied := occupied; uh_count := count; uh_excess := excess; uh_locks := locks; uh_range_end := range_end;
               uh_values := values; uh_offsets := offsets; uh_indices := indices |}).
  (** unordered_base_detail.cuh 1312-1348; total_count() is _occupied.size() (1148-1153) *)
  Definition unordered_mem_destroy (sz : Z) (s : mem) (h : unordered_handle) : outcome (mem * unordered_handle) :=
    let total_count := bh_size (uh_occupied h) in
    let! s := safe_deallocate sz s (uh_values h) total_count device in
    let! s := deallocate_filled int_size s (uh_offsets h) total_count device in
    let! s := safe_deallocate int_size s (uh_indices h) total_count device in
    let! (s, occupied) := bitset_mem_destroy default_bits s (uh_occupied h) in
    let! (s, count) := atomic_destroy int_size s (uh_count h) in
    let! (s, locks) := mutex_mem_destroy default_bits s (uh_locks h) in
    let! (s, excess) := vector_mem_destroy int_size s (uh_excess h) in
    let! (s, range_end) := atomic_destroy int_size s (uh_range_end h) in
    (* unlike in the other containers, _values, _offsets and _range_indices are not set to nullptr *)
    Ret (s, {| uh_occupied := occupied; uh_count := count; uh_excess := excess; uh_locks := locks; uh_range_end := range_end;
               uh_values := uh_values h; uh_offsets := uh_offsets h; uh_indices := uh_indices h |}).

  (** ** Histories: a program creates objects of all kinds and destroys them, naming them by the order of their creation.
      Arrays stand for createDeviceArray / createHostArray (MemoryModel.v). *)
  Inductive kind :=
  | KAtomic (sz : Z) | KBitset (bpb size : Z) | KMutexes (bpb size : Z) | KVector (sz capacity : Z) | KDeque (sz capacity : Z)
  | KAdapter (sz size : Z) (* queue, stack *) | KUnordered (sz capacity : Z) | KDeviceArray (sz n : Z) (v : list Z) | KHostArray (sz n : Z) (v : list Z).
  Inductive object :=
  | OAtomic (sz p : Z) | OBitset (bpb : Z) (h : bitset_handle) | OMutexes (bpb : Z) (h : bitset_handle) | OVector (sz : Z) (h : vector_handle)
  | ODeque (sz : Z) (h : deque_handle) | OAdapter (sz : Z) (h : deque_handle) | OUnordered (sz : Z) (h : unordered_handle)
  | ODeviceArray (sz p : Z) | OHostArray (sz p : Z).
  Definition create_object (s : mem) (k : kind) : outcome (mem * object) :=
    match k with
    | KAtomic sz => let! (s, p) := atomic_create sz s in Ret (s, OAtomic sz p)
    | KBitset bpb n => let! (s, h) := bitset_mem_create bpb s n in Ret (s, OBitset bpb h)
    | KMutexes bpb n => let! (s, h) := mutex_mem_create bpb s n in Ret (s, OMutexes bpb h)
    | KVector sz n => let! (s, h) := vector_mem_create sz s n in Ret (s, OVector sz h)
    | KDeque sz n => let! (s, h) := deque_mem_create sz s n in Ret (s, ODeque sz h)
    | KAdapter sz n => let! (s, h) := adapter_mem_create sz s n in Ret (s, OAdapter sz h)
    | KUnordered sz n => let! (s, h) := unordered_mem_create sz s n in Ret (s, OUnordered sz h)
    | KDeviceArray sz n v => let! (s, p) := create_device_array malloc device_compiled ord sz s n v in Ret (s, ODeviceArray sz p)
    | KHostArray sz n v => let! (s, p) := create_host_array malloc ord sz s n v in Ret (s, OHostArray sz p)
    end.
  (** the device arrays have elements without destructor to call, or not ([optimizable]); the array pointer is set to nullptr
      (memory_detail.h 239, 249, 263) *)
  Definition destroy_object (optimizable : bool) (s : mem) (o : object) : outcome (mem * object) :=
    match o with
    | OAtomic sz p => let! (s, p) := atomic_destroy sz s p in Ret (s, OAtomic sz p)
    | OBitset bpb h => let! (s, h) := bitset_mem_destroy bpb s h in Ret (s, OBitset bpb h)
    | OMutexes bpb h => let! (s, h) := mutex_mem_destroy bpb s h in Ret (s, OMutexes bpb h)
    | OVector sz h => let! (s, h) := vector_mem_destroy sz s h in Ret (s, OVector sz h)
    | ODeque sz h => let! (s, h) := deque_mem_destroy sz s h in Ret (s, ODeque sz h)
    | OAdapter sz h => let! (s, h) := adapter_mem_destroy sz s h in Ret (s, OAdapter sz h)
    | OUnordered sz h => let! (s, h) := unordered_mem_destroy sz s h in Ret (s, OUnordered sz h)
    | ODeviceArray sz p => let! s := destroy_device_array malloc device_compiled sz optimizable s p in Ret (s, ODeviceArray sz 0)
    | OHostArray sz p => let! s := destroy_host_array sz s p in Ret (s, OHostArray sz 0)
    end.
  Inductive lifeop := Create (k : kind) | Destroy (optimizable : bool) (i : nat).
  Definition life_step (st : mem * list object) (op : lifeop) : outcome (mem * list object) :=
    let '(s, objs) := st in
    match op with
    | Create k => let! (s, o) := create_object s k in Ret (s, objs ++ [o])
    | Destroy opt i =>
      match objs !! i with
      | Some o => let! (s, o) := destroy_object opt s o in Ret (s, <[i := o]> objs)
      | None => UB
      end
    end.
  Fixpoint life_run (st : mem * list object) (ops : list lifeop) : outcome (mem * list object) :=
    match ops with [] => Ret st | op :: ops => let! st := life_step st op in life_run st ops end.
End containers.
