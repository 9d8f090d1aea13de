(** Model of src/stdgpu/impl/algorithm_detail.h, numeric_detail.h, the uninitialized/destroy functors of
    memory_detail.h, div_up of bitset_detail.cuh and the HIP lane serialisation of hip/execution.h. *)
From Verif Require Import Base.

(** ** min / max / clamp over a type with operator< *)
Section order.
  Context {T : Type} (lt : T -> T -> bool).

  (** algorithm_detail.h 28-33: (b < a) ? b : a *)
  Definition min (a b : T) : T := if lt b a then b else a.
  (** algorithm_detail.h 35-40: (a < b) ? b : a *)
  Definition max (a b : T) : T := if lt a b then b else a.
  (** algorithm_detail.h 42-50: EXPECTS(!(upper < lower)); v < lower ? lower : upper < v ? upper : v *)
  Definition clamp (v lower upper : T) : outcome T :=
    if lt upper lower then UB
    else Ret (if lt v lower then lower else if lt upper v then upper else v).
End order.

(** ** Index algorithms over memory.
    Memory is a list of cells, [Raw] storage without a living object or [Live v].  Pointers are cell
    numbers; an access outside the list is UB. The value type is arbitrary. *)
Inductive cell (T : Type) := Raw | Live (v : T).
Arguments Raw {T}.
Arguments Live {T} v.
Notation mem T := (list (cell T)).

Section memory.
  Context {T : Type}.

  (** reading an object: lvalue-to-rvalue conversion of dead storage is UB *)
  Definition read (m : mem T) (p : nat) : outcome T :=
    match m !! p with Some (Live v) => Ret v | _ => UB end.
  (** assignment through an iterator requires a living object *)
  Definition assign (m : mem T) (p : nat) (v : T) : outcome (mem T) :=
    match m !! p with Some (Live _) => Ret (<[p := Live v]> m) | _ => UB end.
  (** memory_detail.h 657-663 construct_at: placement new *)
  Definition construct_at (m : mem T) (p : nat) (v : T) : outcome (mem T) :=
    match m !! p with Some _ => Ret (<[p := Live v]> m) | None => UB end.
  (** memory_detail.h 665-670 destroy_at *)
  Definition destroy_at (m : mem T) (p : nat) : outcome (mem T) :=
    match m !! p with Some (Live _) => Ret (<[p := Raw]> m) | _ => UB end.

  (** algorithm_detail.h 52-63 for_each_index: thrust::for_each calls f on every index of [0,size), in an
      unspecified order, here the list [order] (the theorems quantify over all permutations). The calls
      touch disjoint cells, so an order of whole calls represents every parallel execution. *)
  Definition for_each_index (order : list nat) (f : nat -> mem T -> outcome (mem T)) (m : mem T) : outcome (mem T) :=
    fold_left (fun acc i => let! m := acc in f i m) order (Ret m).

  (** algorithm_detail.h 67-87 fill_functor, 93-111 fill / fill_n *)
  Definition fill_n (order : list nat) (begin : nat) (value : T) : mem T -> outcome (mem T) :=
    for_each_index order (fun i m => assign m (begin + i) value).
  (** algorithm_detail.h 116-137 copy_functor, 141-163 copy / copy_n *)
  Definition copy_n (order : list nat) (begin output_begin : nat) : mem T -> outcome (mem T) :=
    for_each_index order (fun i m => let! v := read m (begin + i) in assign m (output_begin + i) v).
  (** numeric_detail.h 56-75 iota_functor, 80-90 iota; [add value i] is value + static_cast<T>(i) *)
  Definition iota (add : T -> nat -> T) (order : list nat) (begin : nat) (value : T) : mem T -> outcome (mem T) :=
    for_each_index order (fun i m => assign m (begin + i) (add value i)).
  (** memory_detail.h 101-121 uninitialized_fill_functor, 672-697 *)
  Definition uninitialized_fill_n (order : list nat) (begin : nat) (value : T) : mem T -> outcome (mem T) :=
    for_each_index order (fun i m => construct_at m (begin + i) value).
  (** memory_detail.h 123-145 uninitialized_copy_functor, 699-724 *)
  Definition uninitialized_copy_n (order : list nat) (begin output_begin : nat) : mem T -> outcome (mem T) :=
    for_each_index order (fun i m => let! v := read m (begin + i) in construct_at m (output_begin + i) v).
  (** memory_detail.h 147-171 destroy_functor / unoptimized_destroy, 726-750 destroy / destroy_n
      (the branch for types that are not is_destroy_optimizable) *)
  Definition destroy_n (order : list nat) (first : nat) : mem T -> outcome (mem T) :=
    for_each_index order (fun i m => destroy_at m (first + i)).
End memory.

(** ** transform_reduce_index *)
Section reduce.
  Context {A : Type}.
  (** A reduction tree: what thrust::transform_reduce evaluates; leaves are init or f(i). *)
  Inductive rtree := RInit | RLeaf (i : nat) | RNode (l r : rtree).
  Fixpoint rleaves (t : rtree) : list (option nat) :=
    match t with RInit => [None] | RLeaf i => [Some i] | RNode l r => rleaves l ++ rleaves r end.
  Fixpoint reval (op : A -> A -> A) (f : nat -> A) (init : A) (t : rtree) : A :=
    match t with
    | RInit => init
    | RLeaf i => f i
    | RNode l r => op (reval op f init l) (reval op f init r)
    end.
  (** numeric_detail.h 133-138: the thrust path; thrust may choose any tree whose leaves are init and
      f(0..n-1) once each, in any order (the theorems quantify over [t]). *)
  Definition transform_reduce_index_thrust (op : A -> A -> A) (f : nat -> A) (init : A) (t : rtree) : A :=
    reval op f init t.
  (** numeric_detail.h 101-131: the HIP path with the host fold for 0 < size <= 4096 *)
  Definition transform_reduce_index_hip (size : Z) (op : A -> A -> A) (f : nat -> A) (init : A) (t : rtree) : A :=
    if size <=? 0 then init
    else if size <=? 4096 then
      let host_values := map f (seq 0 (Z.to_nat size)) in
      fold_left op host_values init
    else reval op f init t.
End reduce.

(** bitset_detail.cuh 117-128 div_up; C++ % and / truncate, equal to mod and div on a >= 0, b > 0 *)
Definition div_up (a b : Z) : outcome Z :=
  if (0 <=? a) && (0 <? b)
  then Ret (if negb (Z.rem a b =? 0) then Z.quot a b + 1 else Z.quot a b)
  else UB.

(** hip/execution.h 34-55 warp_convergent_execute. [active] is the 64-bit mask of __activemask().
    __ffsll(x) is one plus the index of the least significant set bit, 0 for x = 0. *)
Definition ffsll (x : Z) : Z :=
  match filter (fun i => Z.testbit x i = true) (seqZ 0 64) with i :: _ => i + 1 | [] => 0 end.
(** What one lane does: the list of loop rounds in which it executed the body. [~(1ull << elected)]
    is the 64-bit complement. *)
Fixpoint lane_loop (fuel : nat) (lane active : Z) (round : Z) : outcome (list Z) :=
  match fuel with
  | O => Hang
  | S fuel =>
    if active =? 0 then Ret []
    else
      let elected := ffsll active - 1 in
      let ran := if lane =? elected then [round] else [] in
      let active := Z.land active ((Z.lnot (Z.shiftl 1 elected)) mod 2 ^ 64) in
      let! rest := lane_loop fuel lane active (round + 1) in
      Ret (ran ++ rest)
  end.
Definition warp_convergent_execute (fuel : nat) (lane active : Z) : outcome (list Z) :=
  lane_loop fuel lane active 0.
