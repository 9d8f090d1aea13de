(** The kernel of loop_free() (part of valid() of the unordered containers) access by access: the threads of for_each_index run
    count_visits concurrently (UnorderedModel.v runs its calls one after the other). *)
From Verif Require Import Base Conc.

(** where a thread of the kernel is: what its next access will be; i is the index of the call, count_visits::operator()(i) *)
Inductive visit_pc :=
| VHead                     (* fetch_add on _flags[i] of the next index, unordered_base_detail.cuh 273; or finished *)
| VOff (i p : nat)          (* _offsets[p], 275 and 277 *)
| VAdd (i p : nat)          (* fetch_add on _flags[p], 279 *)
| VCheck (i p : nat)        (* _flags[p] > 1, 282: a plain read *)
| VUndefined.               (* an access was undefined *)
(** the remaining indices of the thread *)
Definition visit_thread : Type := list nat * visit_pc.

Section visit.
  Context (off : list Z).   (* _offsets; no kernel of loop_free writes it, so the two reads in 275 and 277 are one step *)
  (** 269-292.  The shared state is the array _flags.  Its elements are ints; the model does not wrap them (an element gets at
      most one addition per call, two from the call it is the head of; there are at most 2^30 calls, one per bucket).  The element read again for the message (287) is left out. *)
  Definition visit_step (_ : nat) (flags : list Z) (t : visit_thread) : option (list Z * visit_thread) :=
    match t with
    | ([], VHead) => None
    | (i :: is, VHead) =>
      match flags !! i with
      | Some n => Some (<[i := n + 1]> flags, (is, VOff i i))
      | None => Some (flags, (is, VUndefined))
      end
    | (is, VOff i p) =>
      match off !! p with
      | Some o =>
        if o =? 0 then Some (flags, (is, VHead))
        else if Z.of_nat p + o <? 0 then Some (flags, (is, VUndefined))
        else Some (flags, (is, VAdd i (Z.to_nat (Z.of_nat p + o))))
      | None => Some (flags, (is, VUndefined))
      end
    | (is, VAdd i p) =>
      match flags !! p with
      | Some n => Some (<[p := n + 1]> flags, (is, VCheck i p))
      | None => Some (flags, (is, VUndefined))
      end
    | (is, VCheck i p) =>
      match flags !! p with
      | Some n => if 1 <? n then Some (flags, (is, VHead)) else Some (flags, (is, VOff i p))
      | None => Some (flags, (is, VUndefined))
      end
    | (_, VUndefined) => None
    end.
End visit.

(** 329-332 the flags before the kernel *)
Definition visit_start (total : nat) : list Z := replicate total 0.
(** 334-336 the kernel *)
Definition visit_threads (progs : list (list nat)) : list visit_thread := (fun is => (is, VHead)) <$> progs.
(** 298-314, 338-342 less_equal_one over all flags *)
Definition visit_result (flags : list Z) : bool := forallb (fun n => n <=? 1) flags.

(** the element of _flags that the next step of a thread accesses; true for the plain read, false for the atomic addition *)
Definition flag_access (t : visit_thread) : option (nat * bool) :=
  match t with
  | (i :: _, VHead) => Some (i, false)
  | (_, VAdd _ p) => Some (p, false)
  | (_, VCheck _ p) => Some (p, true)
  | _ => None
  end.
