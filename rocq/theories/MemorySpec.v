(** Specification of the memory bookkeeping: which blocks are live and registered after a history of calls. *)
From Verif Require Import Base MemoryModel.

(** what is demanded of malloc: a block disjoint from all blocks in use, or nullptr *)
Definition malloc_ok (malloc : nat -> list (Z * Z) -> Z -> Z) : Prop :=
  forall c h n, 0 < n -> malloc c h n = 0 \/ (0 < malloc c h n /\ forall q s, (q, s) ∈ h -> malloc c h n + n <= q \/ q + s <= malloc c h n).
Definition never_fails (malloc : nat -> list (Z * Z) -> Z -> Z) : Prop := forall c h n, malloc c h n <> 0.

(** a block: address, bytes, type *)
Definition block : Type := Z * Z * mtype.
Record book := {
  live : list block;                (* allocated and not yet deallocated *)
  registered : list block;          (* registered and not yet deregistered *)
  n_alloc : mtype -> nat;           (* successful allocations so far *)
  n_dealloc : mtype -> nat          (* successful deallocations so far *)
}.
Definition book0 : book := {| live := []; registered := []; n_alloc := fun _ => O; n_dealloc := fun _ => O |}.
Definition known (l : list block) (p : Z) (t : mtype) : Prop := exists n, (p, n, t) ∈ l.
Definition is_known (l : list block) (p : Z) (t : mtype) : bool := existsb (fun '(q, _, t') => bool_decide (q = p) && bool_decide (t' = t)) l.
Definition forget (l : list block) (p : Z) (t : mtype) : list block := filter (fun b => ~ (b.1.1 = p /\ b.2 = t)) l.
Definition bump (f : mtype -> nat) (t : mtype) : mtype -> nat := fun t' => if decide (t' = t) then S (f t') else f t'.

(** the book after a call that returned r *)
Definition next_book (b : book) (op : mop) (r : mres) : book :=
  match op, r with
  | MAlloc n t, MPtr p => if decide (p = 0) then b else
      {| live := (p, n, t) :: live b; registered := registered b; n_alloc := bump (n_alloc b) t; n_dealloc := n_dealloc b |}
  | MDealloc p t, _ => if is_known (live b) p t then
      {| live := forget (live b) p t; registered := registered b; n_alloc := n_alloc b; n_dealloc := bump (n_dealloc b) t |} else b
  | MRegister p n t, _ => if decide (p = 0 \/ n <= 0) then b else if is_known (registered b) p t then b else
      {| live := live b; registered := (p, n, t) :: registered b; n_alloc := n_alloc b; n_dealloc := n_dealloc b |}
  | MDeregister p t, _ =>
      {| live := live b; registered := forget (registered b) p t; n_alloc := n_alloc b; n_dealloc := n_dealloc b |}
  | _, _ => b
  end.
(** the results a call may give; MTypeOf and MSizeBytes: the device registration wins over the host registration *)
Definition res_ok (b : book) (op : mop) (r : mres) : Prop :=
  match op, r with
  | MAlloc n t, MPtr p =>
      (n <= 0 \/ t = invalid -> p = 0) /\
      (0 < n -> t <> invalid -> 0 < p /\ forall q s t', (q, s, t') ∈ live b -> p + n <= q \/ q + s <= p)
  | MTypeOf p, MType t =>
      match t with
      | device => known (registered b) p device
      | host => known (registered b) p host /\ ~ known (registered b) p device
      | invalid => ~ known (registered b) p host /\ ~ known (registered b) p device
      end
  | MSizeBytes p, MNum n =>
      (forall m, (p, m, device) ∈ registered b -> n = m) /\
      (~ known (registered b) p device -> forall m, (p, m, host) ∈ registered b -> n = m) /\
      (~ known (registered b) p device -> ~ known (registered b) p host -> forall m, (p, m, invalid) ∈ registered b -> n = m) /\
      ((forall t, ~ known (registered b) p t) -> n = 0)
  | MCount t, MPair n m => n = Z.of_nat (n_alloc b t) /\ m = Z.of_nat (n_dealloc b t)
  | (MDealloc _ _ | MRegister _ _ _ | MDeregister _ _ | MCopy _ _ _ _ _), MUnit => True
  | _, _ => False
  end.
Fixpoint book_after (b : book) (ops : list mop) (rs : list mres) : book :=
  match ops, rs with op :: ops, r :: rs => book_after (next_book b op r) ops rs | _, _ => b end.
Fixpoint results_ok (b : book) (ops : list mop) (rs : list mres) : Prop :=
  match ops, rs with
  | [], [] => True
  | op :: ops, r :: rs => res_ok b op r /\ results_ok (next_book b op r) ops rs
  | _, _ => False
  end.
(** calls inside their contract: copies have a non-negative size and do not overlap *)
Definition mop_ok (op : mop) : Prop := match op with MCopy dst src n _ _ => 0 <= n < 2 ^ 63 /\ (dst + n <= src \/ src + n <= dst) | _ => True end.

(** [p, p + n) lies inside one live block of type t *)
Definition inside_live (b : book) (t : mtype) (p n : Z) : Prop := exists q s, (q, s, t) ∈ live b /\ q <= p /\ p + n <= q + s.
Definition live_count (b : book) (t : mtype) : nat := length (filter (fun x => x.2 = t) (live b)).

(** a first-fit allocator, to show that allocators with malloc_ok and never_fails exist *)
Definition first_fit (_ : nat) (h : list (Z * Z)) (_ : Z) : Z := fold_right (fun '(q, s) a => Z.max (q + s) a) 8 h.
(** the same, failing at the first call *)
Definition fails_first (c : nat) (h : list (Z * Z)) (n : Z) : Z := match c with O => 0 | _ => first_fit c h n end.

(** threads that deallocate only blocks they own *)
Definition owner_frees (progs : list (list cop)) : Prop := forall p op, p ∈ progs -> op ∈ p -> match op with CDealloc _ _ => False | _ => True end.

(** the calls of a history are for types of positive size *)
Definition sized (ops : list (Z * aop)) : Prop := forall sz op, (sz, op) ∈ ops -> 0 < sz.
(** a new array, or its removal *)
Definition add_block (b : book) (p n : Z) (t : mtype) : book :=
  {| live := (p, n, t) :: live b; registered := (p, n, t) :: registered b; n_alloc := bump (n_alloc b) t; n_dealloc := n_dealloc b |}.
Definition drop_block (b : book) (p : Z) (t : mtype) : book :=
  {| live := forget (live b) p t; registered := forget (registered b) p t; n_alloc := n_alloc b; n_dealloc := bump (n_dealloc b) t |}.

(** states that histories of calls lead to, and the book of their blocks *)
Definition reachable_mem (malloc : nat -> list (Z * Z) -> Z -> Z) (s : mem) (b : book) : Prop :=
  exists ops rs, Forall mop_ok ops /\ mem_run malloc mem0 ops = Ret (s, rs) /\ b = book_after book0 ops rs.

(** blocks of type t the threads own *)
Definition owned (ls : list mthread) (t : mtype) : list Z := ls ≫= fun th => (filter (fun x => x.2 = t) (mt_own th)).*1.

(** s' is s with one more array: n elements of sz bytes at p, of type t; no other array and no byte of one is changed *)
Definition adds_array (sz : Z) (s s' : mem) (p n : Z) (t : mtype) : Prop :=
  p <> 0 /\ in_block (heap s) p 1 = false /\ array_size sz s' p = n /\ size_bytes s' p = n * sz /\ get_dynamic_memory_type s' p = t /\
  (forall q, q <> p -> size_bytes s' q = size_bytes s q /\ get_dynamic_memory_type s' q = get_dynamic_memory_type s q) /\
  (forall x, in_block (heap s) x 1 = true -> in_block (heap s') x 1 = true /\ bytes s' x = bytes s x) /\
  (forall t', allocation_count s' t' - deallocation_count s' t' = allocation_count s t' - deallocation_count s t' + (if decide (t' = t) then 1 else 0)).
(** s' is s without the array at p *)
Definition removes_array (s s' : mem) (p : Z) (t : mtype) : Prop :=
  size_bytes s' p = 0 /\ get_dynamic_memory_type s' p = invalid /\
  (forall q, q <> p -> size_bytes s' q = size_bytes s q /\ get_dynamic_memory_type s' q = get_dynamic_memory_type s q) /\
  (forall x, in_block (heap s') x 1 = true <-> in_block (heap s) x 1 = true /\ ~ p <= x < p + size_bytes s p) /\
  (forall x, in_block (heap s') x 1 = true -> bytes s' x = bytes s x) /\
  (forall t', allocation_count s' t' - deallocation_count s' t' = allocation_count s t' - deallocation_count s t' - (if decide (t' = t) then 1 else 0)).
