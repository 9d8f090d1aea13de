(** The kernel of device_range() of the unordered containers access by access: the threads of for_each_index run
    unordered_base_collect_positions concurrently (UnorderedModel.v, collect_position, runs its calls one after the other). *)
From Verif Require Import Base Conc BitsetModel UnorderedModel.

(** unordered_base.cuh 530, 540-542: the shared data the kernel accesses *)
Record collector := {
  r_occ : list bool;      (* _occupied; the kernel reads it only *)
  r_end : Z;              (* _range_indices_end, an atomic<index_t>; index_t is int *)
  r_idx : list Z          (* _range_indices *)
}.

(** where a thread of the kernel is: what its next access will be *)
Inductive collect_pc :=
| CTest                     (* base.occupied(i), unordered_base_detail.cuh 149 (and 1070-1076); or finished *)
| CTake (i : nat)           (* _range_indices_end++, 151 *)
| CStore (i : nat) (j : Z)  (* _range_indices[j] = i, 152 *)
| CUndefined.               (* an access was undefined *)
(** the remaining indices of the thread (algorithm_detail.h 57-63: which thread runs which indices is up to the backend) *)
Definition collect_thread : Type := list nat * collect_pc.

(** unordered_base_detail.cuh 146-154.  The access to _occupied reads one bit of an atomic block of the bitset; it is one step here (C12).
    An index outside of it would break the precondition of occupied (1072-1073).  atomic_detail.cuh 715-719: ++ is fetch_add(1), which wraps for signed types. *)
Definition collect_step (_ : nat) (s : collector) (t : collect_thread) : option (collector * collect_thread) :=
  match t with
  | ([], CTest) => None
  | (i :: is, CTest) =>
    match r_occ s !! i with
    | Some true => Some (s, (is, CTake i))
    | Some false => Some (s, (is, CTest))
    | None => Some (s, (is, CUndefined))
    end
  | (is, CTake i) => Some ({| r_occ := r_occ s; r_end := to_int32 (r_end s + 1); r_idx := r_idx s |}, (is, CStore i (r_end s)))
  | (is, CStore i j) =>
    match zat (r_idx s) j with
    | Ret _ => Some ({| r_occ := r_occ s; r_end := r_end s; r_idx := <[Z.to_nat j := Z.of_nat i]> (r_idx s) |}, (is, CTest))
    | _ => Some (s, (is, CUndefined))
    end
  | (_, CUndefined) => None
  end.

(** 173 the store before the kernel; 175-177 the kernel; 179-182 the range that is returned (198-207 for the const version) *)
Definition collect_start {V : Type} (u : utab V) : collector := {| r_occ := u_occ u; r_end := 0; r_idx := u_indices u |}.
Definition collect_threads (progs : list (list nat)) : list collect_thread := (fun is => (is, CTest)) <$> progs.
Definition collect_result (s : collector) : list Z := take (Z.to_nat (r_end s)) (r_idx s).

(** the plain access of the next step of a thread: the element of _range_indices it is about to write (_occupied and
    _range_indices_end are atomics) *)
Definition collect_write (t : collect_thread) : option Z := match t.2 with CStore _ j => Some j | _ => None end.
