(** Model of impl/atomic_detail.cuh and the backend files openmp/impl/atomic_detail.h,
    cuda/impl/atomic_detail.cuh, hip/impl/atomic_detail.h. *)
From Verif Require Import Base Conc.
From Verif Require Import BitModel.

(** ** Operations on a w-bit cell *)
Inductive aop :=
| ALoad | AStore (desired : Z) | AExchange (desired : Z) | ACas (expected desired : Z)
| AAdd (arg : Z) | ASub (arg : Z) | AAnd (arg : Z) | AOr (arg : Z) | AXor (arg : Z)
| AMin (arg : Z) | AMax (arg : Z)
| AIncMod (arg : Z) | ADecMod (arg : Z).

(** openmp atomic_detail.h 193-204 (and CUDA/HIP atomicInc): (old >= arg) ? 0 : old + 1 *)
Definition backend_inc_mod (w : Z) (old arg : Z) : Z := if arg <=? old then 0 else wrap w (old + 1).
(** openmp atomic_detail.h 206-217 (and atomicDec): (old == 0 || old > arg) ? arg : old - 1 *)
Definition backend_dec_mod (w : Z) (old arg : Z) : Z := if (old =? 0) || (arg <? old) then arg else wrap w (old - 1).

(** The value stored by an operation on an unsigned cell that finds [old]:
    openmp atomic_detail.h 37-191 (exchange 56-67, compare_exchange 69-80, add 82-97, sub, and, or, xor,
    min 167-178, max 180-191) and the hardware atomics of the same names;
    fetch_inc_mod / fetch_dec_mod (atomic_detail.cuh 677-702) pass arg - 1 (unsigned) to the backend. *)
Definition new_value (w : Z) (op : aop) (old : Z) : Z :=
  match op with
  | ALoad => old
  | AStore d | AExchange d => d
  | ACas e d => if old =? e then d else old
  | AAdd a => wrap w (old + a)
  | ASub a => wrap w (old - a)
  | AAnd a => Z.land old a
  | AOr a => Z.lor old a
  | AXor a => Z.lxor old a
  | AMin a => if a <? old then a else old       (* std::min(old, arg) *)
  | AMax a => if old <? a then a else old       (* std::max(old, arg) *)
  | AIncMod m => backend_inc_mod w old (wrap w (m - 1))
  | ADecMod m => backend_dec_mod w old (wrap w (m - 1))
  end.

(** the same for a signed w-bit type (two's complement; the GPU instructions and the OpenMP code compiled for x86 wrap around).
    fetch_inc_mod / fetch_dec_mod exist for unsigned int only and are left as they are. *)
Definition swrap (w x : Z) : Z := (x + 2 ^ (w - 1)) mod 2 ^ w - 2 ^ (w - 1).
Definition new_value_signed (w : Z) (op : aop) (old : Z) : Z :=
  match op with
  | AAdd a => swrap w (old + a)
  | ASub a => swrap w (old - a)
  | _ => new_value w op old
  end.
(** the sequential function of a cell of a signed or unsigned type *)
Definition cell_value (signed : bool) : Z -> aop -> Z -> Z := if signed then new_value_signed else new_value.

(** ** How a backend makes an operation indivisible.
    [HwAtomic]: one hardware-atomic instruction (CUDA/HIP atomics, OpenMP `omp atomic capture`).
    [CritRMW]: `omp critical` block that reads and then writes the cell.
    [CritLoad] / [CritStore]: `omp critical` block with a single read / write. *)
Inductive akind := HwAtomic | CritRMW | CritLoad | CritStore.

(** openmp/impl/atomic_detail.h with OpenMP >= 3.1: add/sub/and/or/xor use `omp atomic capture`
    (82-165), everything else the unnamed `omp critical` (37-80, 167-217). *)
Definition kind_openmp (op : aop) : akind :=
  match op with
  | ALoad => CritLoad
  | AStore _ => CritStore
  | AAdd _ | ASub _ | AAnd _ | AOr _ | AXor _ => HwAtomic
  | AExchange _ | ACas _ _ | AMin _ | AMax _ | AIncMod _ | ADecMod _ => CritRMW
  end.
(** cuda/hip atomic_detail: volatile load/store and atomicXxx instructions *)
Definition kind_gpu (op : aop) : akind := HwAtomic.

(** ** Threads executing operations on one cell *)
Section machine.
  Context {V Op : Type} (newv : Op -> V -> V) (kind : Op -> akind).

  Inductive apc := AIdle | AEntered (op : Op) | AHasRead (op : Op) (old : V) | ALeaving.
  Record athread := { a_prog : list Op; a_pc : apc; a_log : list (Op * V) }.
  (** [a_crit]: the unnamed critical section is occupied. [a_hist]: ghost, operations in order of effect. *)
  Record ashared := { a_val : V; a_crit : bool; a_hist : list (nat * Op * V) }.

  Definition effect (tid : nat) (s : ashared) (op : Op) (old new : V) : ashared :=
    {| a_val := new; a_crit := a_crit s; a_hist := a_hist s ++ [(tid, op, old)] |}.
  Definition set_crit (s : ashared) (b : bool) : ashared :=
    {| a_val := a_val s; a_crit := b; a_hist := a_hist s |}.

  (** Each step is one access of the cell or one entry/exit of the critical section. The logged
      value is what the operation returns (for a store, which returns nothing, the overwritten value). *)
  Definition astep (tid : nat) (s : ashared) (l : athread) : option (ashared * athread) :=
    match a_pc l with
    | AIdle =>
      match a_prog l with
      | [] => None
      | op :: rest =>
        match kind op with
        | HwAtomic => Some (effect tid s op (a_val s) (newv op (a_val s)),
                            {| a_prog := rest; a_pc := AIdle; a_log := a_log l ++ [(op, a_val s)] |})
        | _ => if a_crit s then None
               else Some (set_crit s true, {| a_prog := rest; a_pc := AEntered op; a_log := a_log l |})
        end
      end
    | AEntered op =>
      match kind op with
      | CritLoad => Some (effect tid s op (a_val s) (a_val s),
                          {| a_prog := a_prog l; a_pc := ALeaving; a_log := a_log l ++ [(op, a_val s)] |})
      | CritStore => Some (effect tid s op (a_val s) (newv op (a_val s)),
                           {| a_prog := a_prog l; a_pc := ALeaving; a_log := a_log l ++ [(op, a_val s)] |})
      | _ => Some (s, {| a_prog := a_prog l; a_pc := AHasRead op (a_val s); a_log := a_log l |})
      end
    | AHasRead op old =>
      Some (effect tid s op old (newv op old),
            {| a_prog := a_prog l; a_pc := ALeaving; a_log := a_log l ++ [(op, old)] |})
    | ALeaving => Some (set_crit s false, {| a_prog := a_prog l; a_pc := AIdle; a_log := a_log l |})
    end.

  Definition a_init (v0 : V) (progs : list (list Op)) : config :=
    ({| a_val := v0; a_crit := false; a_hist := [] |},
     (fun p => {| a_prog := p; a_pc := AIdle; a_log := [] |}) <$> progs).
End machine.
Arguments AIdle {V Op}.
Arguments ALeaving {V Op}.
Arguments AEntered {V Op} op.
Arguments AHasRead {V Op} op old.

(** ** compare_exchange_strong: atomic_detail.cuh 552-576.
    [eqb] is the C++ == of T (for floating point not an equivalence on NaN). *)
Definition compare_exchange_strong {T} (eqb : T -> T -> bool) (stored expected desired : T) : T * T * bool :=
  let old := stored in                                        (* backend compare exchange returns old *)
  let stored' := if eqb old expected then desired else old in  (* openmp atomic_detail.h 76 *)
  let changed := eqb old expected in
  let expected' := if negb changed then old else expected in
  (stored', expected', changed).

(** ** operators of atomic_detail.cuh 703-779.  They run a fetch operation ([operator_fetch]) and combine the value it
    returned once more ([operator_result]); the C++ result type T wraps. *)
Inductive aoperator :=
| PreInc | PostInc | PreDec | PostDec                                                    (* ++a, a++, --a, a-- *)
| AddAssign (arg : Z) | SubAssign (arg : Z) | AndAssign (arg : Z) | OrAssign (arg : Z) | XorAssign (arg : Z)
| Assign (desired : Z).                                                                  (* a = desired, 527-536 *)
Definition operator_fetch (o : aoperator) : aop :=
  match o with
  | PreInc | PostInc => AAdd 1
  | PreDec | PostDec => ASub 1
  | AddAssign a => AAdd a | SubAssign a => ASub a | AndAssign a => AAnd a | OrAssign a => AOr a | XorAssign a => AXor a
  | Assign d => AStore d
  end.
Definition operator_result (signed : bool) (w : Z) (o : aoperator) (fetched : Z) : Z :=
  let cast := if signed then swrap w else wrap w in
  match o with
  | PreInc => cast (fetched + 1)          (* fetch_add(1) + 1 *)
  | PostInc => fetched
  | PreDec => cast (fetched - 1)          (* fetch_sub(1) - 1 *)
  | PostDec => fetched
  | AddAssign a => cast (fetched + a)
  | SubAssign a => cast (fetched - a)
  | AndAssign a => Z.land fetched a
  | OrAssign a => Z.lor fetched a
  | XorAssign a => Z.lxor fetched a
  | Assign d => d
  end.

(** ** CUDA atomicMin/atomicMax for float: cuda/impl/atomic_detail.cuh 35-67.
    [bits] of the cell are ints; [of_bits]/[to_bits] are __int_as_float / __float_as_int; [pick] is
    stdgpu::min<float>(., value) resp. max. The environment: [env k] is the content of the cell just before
    the k-th access of this thread, chosen by the other threads. Result: value returned and the list of
    (access number, content written) of this thread. The retry loop runs on fuel. *)
Section cas_loop.
  Context {F : Type} (of_bits : Z -> F) (to_bits : F -> Z) (pick : F -> F) (env : nat -> Z).

  Fixpoint cas_loop (fuel k : nat) (assumed : Z) : outcome (F * list (nat * Z)) :=
    match fuel with
    | O => Hang
    | S fuel =>
      (* old = atomicCAS(address, assumed, to_bits(pick(of_bits assumed))) *)
      let old := env k in
      let writes := if old =? assumed then [(k, to_bits (pick (of_bits assumed)))] else [] in
      if negb (assumed =? old) then
        let! r := cas_loop fuel (S k) old in Ret (r.1, writes ++ r.2)
      else Ret (of_bits old, writes)
    end.
  Definition atomic_minmax_float (fuel : nat) : outcome (F * list (nat * Z)) :=
    cas_loop fuel 1 (env 0).    (* int old = *address_as_int *)
End cas_loop.

(** cuda atomic_detail.cuh 23-27: atomicSub for unsigned long long via atomicAdd(max - value + 1) *)
Definition atomicSub_ull (stored value : Z) : Z :=
  let max := 2 ^ 64 - 1 in
  let arg := wrap 64 (wrap 64 (max - value) + 1) in
  wrap 64 (stored + arg).

(** ** Memory orders and fences: atomic_detail.cuh 33-130 and the operations 436-702 *)
Inductive memory_order := relaxed | consume | acquire | release | acq_rel | seq_cst.
Inductive fevent := Fence | Access.

Definition load_thread_fence (o : memory_order) : list fevent :=         (* 33-55 *)
  match o with consume | acquire | acq_rel | seq_cst => [Fence] | relaxed | release => [] end.
Definition store_thread_fence (o : memory_order) : list fevent :=        (* 57-79 *)
  match o with release | acq_rel | seq_cst => [Fence] | relaxed | consume | acquire => [] end.
Definition consistency_thread_fence (o : memory_order) : list fevent :=  (* 81-103 *)
  match o with seq_cst => [Fence] | _ => [] end.
Definition load_trace (o : memory_order) : list fevent :=                (* 436-455 *)
  load_thread_fence o ++ [Access] ++ consistency_thread_fence o.
Definition store_trace (o : memory_order) : list fevent :=               (* 489-506 *)
  consistency_thread_fence o ++ [Access] ++ store_thread_fence o.
Definition rmw_trace (o : memory_order) : list fevent :=                 (* 541-702: exchange, compare_exchange, fetch_* *)
  load_thread_fence o ++ [Access] ++ store_thread_fence o.
Definition thread_fence_trace (o : memory_order) : list fevent :=        (* 106-124 *)
  match o with relaxed => [] | _ => [Fence] end.
