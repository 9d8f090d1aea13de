(** Model of src/stdgpu/impl/memory.cpp and of the array functions and allocators of src/stdgpu/impl/memory_detail.h.
    Addresses are integers, 0 is nullptr; pointer arithmetic is done in Z (no wrap at 2^64).  The memory blocks of device and host
    are in one address space (as with OpenMP, or CUDA unified addressing).  printf warnings are not modelled.  The memory_manager
    functions hold its mutex from begin to end, so each of them is one atomic step. *)
From Verif Require Import Base.

Inductive mtype := device | host | invalid.
Global Instance mtype_eq_dec : EqDecision mtype.
Proof. solve_decision. Defined.

(** ** std::map<void*, index64_t> as a list sorted by key *)
Fixpoint map_find (l : list (Z * Z)) (p : Z) : option Z :=
  match l with [] => None | (q, s) :: l => if p =? q then Some s else map_find l p end.
(** operator[]: insert or overwrite *)
Fixpoint map_set (l : list (Z * Z)) (p s : Z) : list (Z * Z) :=
  match l with
  | [] => [(p, s)]
  | (q, t) :: l' => if p <? q then (p, s) :: l else if p =? q then (p, s) :: l' else (q, t) :: map_set l' p s
  end.
Fixpoint map_erase (l : list (Z * Z)) (p : Z) : list (Z * Z) :=
  match l with [] => [] | (q, t) :: l' => if p =? q then l' else (q, t) :: map_erase l' p end.
(** [begin(), lower_bound(p)): the entries before the first one whose key is not less than p *)
Fixpoint map_before (l : list (Z * Z)) (p : Z) : list (Z * Z) :=
  match l with [] => [] | (q, t) :: l' => if q <? p then (q, t) :: map_before l' p else [] end.

(** ** memory.cpp 36-120 class memory_manager *)
Record mgr := { m_ptrs : list (Z * Z); m_ins : Z; m_del : Z }.
Definition mgr0 : mgr := {| m_ptrs := []; m_ins := 0; m_del := 0 |}.
(** memory.cpp 152-158, 183-223 *)
Definition contains_memory (m : mgr) (p : Z) : bool := match map_find (m_ptrs m) p with Some _ => true | None => false end.
Definition find_size (m : mgr) (p : Z) : Z := match map_find (m_ptrs m) p with Some s => s | None => 0 end.
Definition mgr_size (m : mgr) : Z := Z.of_nat (length (m_ptrs m)).
Definition mgr_valid (m : mgr) : bool := m_ins m - m_del m =? mgr_size m.
(** memory.cpp 122-135 (the contracts that follow from the ones stated are left out) *)
Definition mgr_register (m : mgr) (p s : Z) : outcome mgr :=
  require negb (contains_memory m p) in
  require mgr_valid m in
  let m' := {| m_ptrs := map_set (m_ptrs m) p s; m_ins := m_ins m + 1; m_del := m_del m |} in
  require contains_memory m' p in
  require mgr_valid m' in Ret m'.
(** memory.cpp 137-150 *)
Definition mgr_deregister (m : mgr) (p : Z) : outcome mgr :=
  require contains_memory m p in
  require mgr_valid m in
  let m' := {| m_ptrs := map_erase (m_ptrs m) p; m_ins := m_ins m; m_del := m_del m + 1 |} in
  require negb (contains_memory m' p) in
  require mgr_valid m' in Ret m'.
(** memory.cpp 160-181 *)
Definition contains_submemory (m : mgr) (p size : Z) : bool :=
  existsb (fun '(q, s) => (q <=? p) && (p + size <=? q + s)) (map_before (m_ptrs m) (p + size)).

(** ** State: the two managers per memory type, the blocks of the backend and the content of memory *)
Record mem := {
  alloc_mgr : mtype -> mgr;         (* dispatch_allocation_manager, memory.cpp 225-250 *)
  size_mgr : mtype -> mgr;          (* dispatch_size_manager, memory.cpp 375-400 *)
  heap : list (Z * Z);              (* blocks (address, bytes) malloc has handed out and that have not been freed *)
  clock : nat;                      (* number of calls of malloc so far *)
  bytes : Z -> Z                    (* content of memory *)
}.
Definition set_alloc (s : mem) (t : mtype) (m : mgr) : mem := {|
  alloc_mgr := fun t' => if decide (t' = t) then m else alloc_mgr s t'; size_mgr := size_mgr s; heap := heap s; clock := clock s; bytes := bytes s |}.
Definition set_sizes (s : mem) (t : mtype) (m : mgr) : mem := {|
  alloc_mgr := alloc_mgr s; size_mgr := fun t' => if decide (t' = t) then m else size_mgr s t'; heap := heap s; clock := clock s; bytes := bytes s |}.
Definition set_heap (s : mem) (h : list (Z * Z)) (c : nat) : mem := {|
  alloc_mgr := alloc_mgr s; size_mgr := size_mgr s; heap := h; clock := c; bytes := bytes s |}.
Definition set_bytes (s : mem) (f : Z -> Z) : mem := {|
  alloc_mgr := alloc_mgr s; size_mgr := size_mgr s; heap := heap s; clock := clock s; bytes := f |}.
Definition mem0 : mem := {| alloc_mgr := fun _ => mgr0; size_mgr := fun _ => mgr0; heap := []; clock := 0; bytes := fun _ => 0 |}.

Section memory.
  (** what the t-th call of malloc_device/malloc_host returns, given the blocks in use and the size; 0: failure
      (openmp/impl/memory.cpp 24-34: nullptr is passed on; with CUDA the program ends, cuda/impl/error.h 41-56) *)
  Context (malloc : nat -> list (Z * Z) -> Z -> Z).

  Definition backend_malloc (s : mem) (n : Z) : mem * Z :=
    let a := malloc (clock s) (heap s) n in
    (set_heap s (if a =? 0 then heap s else (a, n) :: heap s) (S (clock s)), a).
  (** freeing an address that is not the start of a block in use is undefined *)
  Definition backend_free (s : mem) (p : Z) : outcome mem :=
    match map_find (heap s) p with Some _ => Ret (set_heap s (map_erase (heap s) p) (clock s)) | None => UB end.
  (** every access has to stay inside one block in use *)
  Definition in_block (h : list (Z * Z)) (p n : Z) : bool := existsb (fun '(q, s) => (q <=? p) && (p + n <=? q + s)) h.
  (** std::memcpy / cudaMemcpy: undefined for blocks not in use and for overlapping ranges; [bytes] converts to size_t *)
  Definition backend_memcpy (s : mem) (dst src n : Z) : outcome mem :=
    let n := n mod 2 ^ 64 in
    if n =? 0 then Ret s
    else
      require in_block (heap s) dst n && in_block (heap s) src n in
      require (dst + n <=? src) || (src + n <=? dst) in
      Ret (set_bytes s (fun x => if (dst <=? x) && (x <? dst + n) then bytes s (src + (x - dst)) else bytes s x)).

  (** memory.cpp 252-288 *)
  Definition allocate (s : mem) (n : Z) (t : mtype) : outcome (mem * Z) :=
    if n <=? 0 then Ret (s, 0)
    else
      match t with
      | invalid => Ret (s, 0)
      | _ =>
        let '(s, array) := backend_malloc s n in
        let! m := mgr_register (alloc_mgr s t) array n in
        Ret (set_alloc s t m, array)
      end.
  (** memory.cpp 290-328 *)
  Definition deallocate (s : mem) (p : Z) (t : mtype) : outcome mem :=
    if p =? 0 then Ret s
    else if negb (contains_memory (alloc_mgr s t) p) then Ret s
    else
      let! m := mgr_deregister (alloc_mgr s t) p in
      let s := set_alloc s t m in
      match t with invalid => Ret s | _ => backend_free s p end.
  (** memory.cpp 330-373 *)
  Definition mem_copy (s : mem) (dst src n : Z) (dt st : mtype) (external : bool) : outcome mem :=
    if negb external && negb (contains_submemory (alloc_mgr s dt) dst n) then Ret s
    else if negb external && negb (contains_submemory (alloc_mgr s st) src n) then Ret s
    else match dt, st with
         | invalid, _ | _, invalid => Ret s
         | _, _ => backend_memcpy s dst src n
         end.

  (** memory.cpp 404-418 *)
  Definition get_dynamic_memory_type (s : mem) (p : Z) : mtype :=
    if contains_memory (size_mgr s device) p then device
    else if contains_memory (size_mgr s host) p then host else invalid.
  (** memory.cpp 420-440 *)
  Definition register_memory (s : mem) (p n : Z) (t : mtype) : outcome mem :=
    if p =? 0 then Ret s
    else if n <=? 0 then Ret s
    else if contains_memory (size_mgr s t) p then Ret s
    else let! m := mgr_register (size_mgr s t) p n in Ret (set_sizes s t m).
  (** memory.cpp 442-452 *)
  Definition deregister_memory (s : mem) (p : Z) (t : mtype) : outcome mem :=
    if negb (contains_memory (size_mgr s t) p) then Ret s
    else let! m := mgr_deregister (size_mgr s t) p in Ret (set_sizes s t m).
  (** memory.cpp 454-464 *)
  Definition allocation_count (s : mem) (t : mtype) : Z := m_ins (alloc_mgr s t).
  Definition deallocation_count (s : mem) (t : mtype) : Z := m_del (alloc_mgr s t).
  (** memory.cpp 466-480 *)
  Definition size_bytes (s : mem) (p : Z) : Z := find_size (size_mgr s (get_dynamic_memory_type s p)) p.

  (** ** histories *)
  Inductive mop :=
  | MAlloc (n : Z) (t : mtype) | MDealloc (p : Z) (t : mtype) | MRegister (p n : Z) (t : mtype) | MDeregister (p : Z) (t : mtype)
  | MCopy (dst src n : Z) (dt st : mtype) | MSizeBytes (p : Z) | MTypeOf (p : Z) | MCount (t : mtype).
  Inductive mres := MUnit | MPtr (p : Z) | MNum (n : Z) | MType (t : mtype) | MPair (n m : Z).
  Definition mem_step (s : mem) (op : mop) : outcome (mem * mres) :=
    match op with
    | MAlloc n t => let! (s, p) := allocate s n t in Ret (s, MPtr p)
    | MDealloc p t => let! s := deallocate s p t in Ret (s, MUnit)
    | MRegister p n t => let! s := register_memory s p n t in Ret (s, MUnit)
    | MDeregister p t => let! s := deregister_memory s p t in Ret (s, MUnit)
    | MCopy dst src n dt st => let! s := mem_copy s dst src n dt st false in Ret (s, MUnit)
    | MSizeBytes p => Ret (s, MNum (size_bytes s p))
    | MTypeOf p => Ret (s, MType (get_dynamic_memory_type s p))
    | MCount t => Ret (s, MPair (allocation_count s t) (deallocation_count s t))
    end.
  Fixpoint mem_run (s : mem) (ops : list mop) : outcome (mem * list mres) :=
    match ops with
    | [] => Ret (s, [])
    | op :: ops => let! (s1, r) := mem_step s op in let! (s2, rs) := mem_run s1 ops in Ret (s2, r :: rs)
    end.

  (** ** memory_detail.h: arrays of a type T.  A value of T is given by its bytes (memory_detail.h copies arrays with memcpy);
      constructors write these bytes, destructors have no effect.  [sz] is sizeof(T). *)
  (** STDGPU_DETAIL_IS_DEVICE_COMPILED; order of the iterations of a parallel loop *)
  Context (device_compiled : bool) (ord : nat -> list nat) (sz : Z).

  Definition mul64 (a b : Z) : outcome Z := require (- 2 ^ 63 <=? a * b) && (a * b <? 2 ^ 63) in Ret (a * b).
  (** iterator_detail.h 42-56 *)
  Definition array_size (s : mem) (p : Z) : Z :=
    let b := size_bytes s p in if negb (b mod sz =? 0) then 0 else b / sz.
  (** memory_detail.h 492-539 safe_device_allocator / safe_host_allocator; the templates of register_memory and
      deregister_memory multiply by sizeof(T) (memory_detail.h 764-792) *)
  Definition safe_allocate (s : mem) (n : Z) (t : mtype) : outcome (mem * Z) :=
    let! b := mul64 n sz in
    let! (s, p) := allocate s b t in
    let! s := register_memory s p b t in Ret (s, p).
  Definition safe_deallocate (s : mem) (p n : Z) (t : mtype) : outcome mem :=
    let! _ := mul64 n sz in
    let! s := deregister_memory s p t in deallocate s p t.
  (** construct_at (memory_detail.h 657-663) *)
  Definition write_bytes (f : Z -> Z) (a : Z) (l : list Z) : Z -> Z :=
    fun x => if (a <=? x) && (x <? a + Z.of_nat (length l)) then nth (Z.to_nat (x - a)) l 0 else f x.
  Definition store (s : mem) (a : Z) (v : list Z) : outcome mem :=
    require in_block (heap s) a sz in Ret (set_bytes s (write_bytes (bytes s) a v)).
  (** memory_detail.h 672-690 uninitialized_fill *)
  Definition fill_array (s : mem) (p n : Z) (v : list Z) : outcome mem :=
    fold_left (fun acc i => let! s := acc in store s (p + Z.of_nat i * sz) v) (ord (Z.to_nat n)) (Ret s).
  (** memory_detail.h 566-581 allocate_filled *)
  Definition allocate_filled (s : mem) (n : Z) (v : list Z) (t : mtype) : outcome (mem * Z) :=
    let! (s, p) := safe_allocate s n t in
    if p =? 0 then Ret (s, p) else let! s := fill_array s p (array_size s p) v in Ret (s, p).
  (** memory_detail.h 583-597 deallocate_filled; the destructor calls are in LifeModel.v *)
  Definition deallocate_filled (s : mem) (p n : Z) (t : mtype) : outcome mem := safe_deallocate s p n t.
  (** memory_detail.h 346-416 copyDevice2HostArray and the three others *)
  Definition copy_array (s : mem) (src n dst : Z) (st dt : mtype) (external : bool) : outcome mem :=
    let! b := mul64 n sz in mem_copy s dst src b dt st external.
  (** memory_detail.h 266-344 copyCreateDevice2HostArray and the three others *)
  Definition copy_create_array (s : mem) (src n : Z) (st dt : mtype) (external : bool) : outcome (mem * Z) :=
    let! (s, p) := safe_allocate s n dt in
    if p =? 0 then Ret (s, 0) else let! s := copy_array s src n p st dt external in Ret (s, p).
  (** memory_detail.h 205-223, 252-264 *)
  Definition create_host_array (s : mem) (n : Z) (v : list Z) : outcome (mem * Z) := allocate_filled s n v host.
  Definition destroy_host_array (s : mem) (p : Z) : outcome mem := deallocate_filled s p (array_size s p) host.
  (** memory_detail.h 175-203 *)
  Definition create_device_array (s : mem) (n : Z) (v : list Z) : outcome (mem * Z) :=
    if device_compiled then allocate_filled s n v device
    else
      let! (s, h) := create_host_array s n v in
      let! (s, d) := copy_create_array s h n host device false in
      let! s := destroy_host_array s h in Ret (s, d).
  (** memory_detail.h 225-250; without device compilation and with a destructor to call, a host copy is made, destroyed and freed *)
  Definition destroy_device_array (optimizable : bool) (s : mem) (p : Z) : outcome mem :=
    if device_compiled || optimizable then deallocate_filled s p (array_size s p) device
    else
      let! (s, h) := copy_create_array s p (array_size s p) device host false in
      let! s := destroy_host_array s h in
      safe_deallocate s p (array_size s p) device.

  (** the element at position i of an array *)
  Definition element_at (s : mem) (p : Z) (i : nat) (v : list Z) : Prop :=
    in_block (heap s) (p + Z.of_nat i * sz) sz = true /\ forall j, (j < length v)%nat -> bytes s (p + Z.of_nat i * sz + Z.of_nat j) = nth j v 0.

  Inductive aop :=
  | ACreateDevice (n : Z) (v : list Z) | ACreateHost (n : Z) (v : list Z) | ADestroyDevice (opt : bool) (p : Z) | ADestroyHost (p : Z)
  | ACopyCreate (p n : Z) (st dt : mtype) | ACopy (src n dst : Z) (st dt : mtype) | ASize (p : Z).
  Definition arr_step (s : mem) (op : aop) : outcome (mem * mres) :=
    match op with
    | ACreateDevice n v => let! (s, p) := create_device_array s n v in Ret (s, MPtr p)
    | ACreateHost n v => let! (s, p) := create_host_array s n v in Ret (s, MPtr p)
    | ADestroyDevice opt p => let! s := destroy_device_array opt s p in Ret (s, MUnit)
    | ADestroyHost p => let! s := destroy_host_array s p in Ret (s, MUnit)
    | ACopyCreate p n st dt => let! (s, q) := copy_create_array s p n st dt false in Ret (s, MPtr q)
    | ACopy src n dst st dt => let! s := copy_array s src n dst st dt false in Ret (s, MUnit)
    | ASize p => Ret (s, MNum (array_size s p))
    end.
End memory.
(** a history of calls of the array functions, each for its own element type, given by its size *)
Fixpoint arr_run (malloc : nat -> list (Z * Z) -> Z -> Z) (device_compiled : bool) (ord : nat -> list nat) (s : mem) (ops : list (Z * aop)) : outcome (mem * list mres) :=
  match ops with
  | [] => Ret (s, [])
  | (sz, op) :: ops =>
    let! (s1, r) := arr_step malloc device_compiled ord sz s op in
    let! (s2, rs) := arr_run malloc device_compiled ord s1 ops in Ret (s2, r :: rs)
  end.

(** ** threads calling allocate and deallocate concurrently (built without contract checks): every call of a memory_manager function and of
    the backend is one atomic step.  CFree k deallocates the k-th block the thread owns (has allocated itself and not yet deallocated),
    CDealloc an arbitrary pointer. *)
Inductive cop := CAlloc (n : Z) (t : mtype) | CFree (k : nat) | CDealloc (p : Z) (t : mtype).
Inductive mpc :=
| PIdle
| PMalloced (p n : Z) (t : mtype)   (* allocate: before register_memory, memory.cpp 285 *)
| PChecked (p : Z) (t : mtype)      (* deallocate: contains_memory was true, before deregister_memory, memory.cpp 305 *)
| PFree (p : Z) (t : mtype)         (* deallocate: before free, memory.cpp 311-319 *)
| PDoubleFree (p : Z).              (* free was called for a block not in use *)
Record mthread := { mt_prog : list cop; mt_pc : mpc; mt_own : list (Z * mtype) }.
Definition mt_set (th : mthread) (pc : mpc) (own : list (Z * mtype)) : mthread := {| mt_prog := mt_prog th; mt_pc := pc; mt_own := own |}.
Definition mt_done (th : mthread) (own : list (Z * mtype)) : mthread := {| mt_prog := tail (mt_prog th); mt_pc := PIdle; mt_own := own |}.
Definition release_register (m : mgr) (p s : Z) : mgr := {| m_ptrs := map_set (m_ptrs m) p s; m_ins := m_ins m + 1; m_del := m_del m |}.
Definition release_deregister (m : mgr) (p : Z) : mgr := {| m_ptrs := map_erase (m_ptrs m) p; m_ins := m_ins m; m_del := m_del m + 1 |}.
(** memory.cpp 293-302 *)
Definition start_dealloc (s : mem) (th : mthread) (p : Z) (t : mtype) (own : list (Z * mtype)) : mem * mthread :=
  if (p =? 0) || negb (contains_memory (alloc_mgr s t) p) then (s, mt_done th own) else (s, mt_set th (PChecked p t) own).
Definition mem_tstep (malloc : nat -> list (Z * Z) -> Z -> Z) (_ : nat) (s : mem) (th : mthread) : option (mem * mthread) :=
  match mt_pc th with
  | PIdle =>
    match mt_prog th with
    | [] => None
    | CAlloc n t :: _ =>
      if (n <=? 0) || bool_decide (t = invalid) then Some (s, mt_done th (mt_own th))
      else let '(s, p) := backend_malloc malloc s n in Some (s, mt_set th (PMalloced p n t) (mt_own th))
    | CFree k :: _ =>
      match mt_own th !! k with
      | Some (p, t) => Some (start_dealloc s th p t (delete k (mt_own th)))
      | None => Some (s, mt_done th (mt_own th))
      end
    | CDealloc p t :: _ => Some (start_dealloc s th p t (mt_own th))
    end
  | PMalloced p n t => Some (set_alloc s t (release_register (alloc_mgr s t) p n), mt_done th ((p, t) :: mt_own th))
  | PChecked p t => Some (set_alloc s t (release_deregister (alloc_mgr s t) p), mt_set th (PFree p t) (mt_own th))
  | PFree p t => match backend_free s p with Ret s' => Some (s', mt_done th (mt_own th)) | _ => Some (s, mt_set th (PDoubleFree p) (mt_own th)) end
  | PDoubleFree _ => None
  end.
Definition mem_threads (progs : list (list cop)) : list mthread := (fun p => {| mt_prog := p; mt_pc := PIdle; mt_own := [] |}) <$> progs.
