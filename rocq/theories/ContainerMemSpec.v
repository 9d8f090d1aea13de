(** Specification of the memory use of the containers: which blocks an object of each kind has, and which objects are alive. *)
From Verif Require Import Base BitModel VectorModel UnorderedModel MemoryModel ContainerMemModel.

(** a part of an object: bytes, memory type, and whether the bytes are zero when the object has been created *)
Definition part : Type := Z * mtype * bool.
(** bits stored in blocks of bpb bits: a whole number of blocks *)
Definition bits_bytes (bpb size : Z) : Z := (size + bpb - 1) / bpb * (bpb / 8).
Definition excess_of (capacity : Z) : Z := match excess_count_for capacity with Ret e => e | _ => 0 end.
Definition bits_part (bpb size : Z) (zero : bool) : part := (bits_bytes bpb size, device, zero).
Definition counter_part (zero : bool) : part := (4, device, zero).
(** one bit per element for the locks and one for the occupancy, a counter, the elements *)
Definition vector_parts (sz capacity : Z) (zero : bool) : list part :=
  [bits_part 32 capacity zero; bits_part 32 capacity zero; counter_part zero; (capacity * sz, device, false)].
Definition deque_parts (sz capacity : Z) : list part :=
  [bits_part 32 capacity true; bits_part 32 capacity true; counter_part true; counter_part true; counter_part true;
   (capacity * sz, device, false); (capacity * 4, device, false)].
(** occupancy, count, excess list, locks, range counter, values, offsets, range indices *)
Definition unordered_parts (sz total excess : Z) : list part :=
  [bits_part 32 total true; counter_part true] ++ vector_parts 4 excess false ++
  [bits_part 32 total true; counter_part true; (total * sz, device, false); (total * 4, device, true); (total * 4, device, false)].
Definition parts (k : kind) : list part :=
  match k with
  | KAtomic sz => [(sz, device, true)]
  | KBitset bpb size | KMutexes bpb size => [bits_part bpb size true]
  | KVector sz capacity => vector_parts sz capacity true
  | KDeque sz capacity | KAdapter sz capacity => deque_parts sz capacity
  | KUnordered sz capacity => unordered_parts sz (bucket_count_for capacity + excess_of capacity) (excess_of capacity)
  | KDeviceArray sz n _ => [(n * sz, device, false)]
  | KHostArray sz n _ => [(n * sz, host, false)]
  end.

(** the pointers of an object, in the order of its parts *)
Definition vector_pointers (h : vector_handle) : list Z := [bh_blocks (vh_locks h); bh_blocks (vh_occupied h); vh_size h; vh_data h].
Definition deque_pointers (h : deque_handle) : list Z :=
  [bh_blocks (dh_locks h); bh_blocks (dh_occupied h); dh_size h; dh_begin h; dh_end h; dh_data h; dh_indices h].
Definition pointers (o : object) : list Z :=
  match o with
  | OAtomic _ p | ODeviceArray _ p | OHostArray _ p => [p]
  | OBitset _ h | OMutexes _ h => [bh_blocks h]
  | OVector _ h => vector_pointers h
  | ODeque _ h | OAdapter _ h => deque_pointers h
  | OUnordered _ h => [bh_blocks (uh_occupied h); uh_count h] ++ vector_pointers (uh_excess h) ++ [bh_blocks (uh_locks h); uh_range_end h; uh_values h; uh_offsets h; uh_indices h]
  end.

(** the blocks (address, bytes, type) of an object of kind k; a part of no bytes has none *)
Definition object_blocks (k : kind) (o : object) : list (Z * Z * mtype) :=
  filter (fun b => b.1.2 <> 0) (zip_with (fun p q => (p, q.1.1, q.1.2)) (pointers o) (parts k)).

(** the objects created so far, in order, and whether they are alive *)
Definition objects : Type := list (kind * bool).
Definition next_objects (ks : objects) (op : lifeop) : objects :=
  match op with
  | Create k => ks ++ [(k, true)]
  | Destroy _ i => match ks !! i with Some (k, _) => <[i := (k, false)]> ks | None => ks end
  end.
Definition objects_after (ops : list lifeop) : objects := fold_left next_objects ops [].
Definition live_blocks (ks : objects) (objs : list object) : list (Z * Z * mtype) :=
  mjoin (zip_with (fun k o => if (k : kind * bool).2 then object_blocks k.1 o else []) ks objs).

(** calls inside their contracts.  Elements have at most 4 GiB; bitset and mutex_array are for 32 and 64 bit blocks *)
Definition size_ok (sz : Z) : Prop := 0 < sz <= 2 ^ 32.
Definition kind_ok (k : kind) : Prop :=
  match k with
  | KAtomic sz => size_ok sz
  | KBitset bpb size | KMutexes bpb size => (bpb = 32 \/ bpb = 64) /\ 0 <= size <= INT_MAX
  | KVector sz capacity | KDeque sz capacity | KAdapter sz capacity => size_ok sz /\ 0 < capacity <= INT_MAX
  | KUnordered sz capacity => size_ok sz /\ 0 < capacity <= 2 ^ 30
  | KDeviceArray sz n v | KHostArray sz n v => size_ok sz /\ 0 < n <= INT_MAX /\ Z.of_nat (length v) = sz
  end.
Definition is_unordered (k : kind) : bool := match k with KUnordered _ _ => true | _ => false end.
(** an object may be destroyed if it is alive; a destroyed one again, unless it is an unordered container *)
Definition lifeop_ok (ks : objects) (op : lifeop) : Prop :=
  match op with
  | Create k => kind_ok k
  | Destroy _ i => exists k alive, ks !! i = Some (k, alive) /\ (alive = true \/ is_unordered k = false)
  end.
Fixpoint life_ok (ks : objects) (ops : list lifeop) : Prop :=
  match ops with [] => True | op :: ops => lifeop_ok ks op /\ life_ok (next_objects ks op) ops end.

(** the states that histories inside the contracts lead to, with the objects created so far *)
Definition reachable_life (malloc : nat -> list (Z * Z) -> Z -> Z) (device_compiled : bool) (ord : nat -> list nat) (ks : objects) (s : mem) (objs : list object) : Prop :=
  exists ops, life_ok [] ops /\ ks = objects_after ops /\ life_run malloc device_compiled ord (mem0, []) ops = Ret (s, objs).
