(** The size counters as the code has them: stdgpu::atomic<int>, 32 bits, every increment and decrement wrapping around
    (vector.cuh 590 _size, deque.cuh 434 _size, unordered_base.cuh 532 _occupied_count).  SlotModel.v and UConcModel.v run on unbounded
    counters; the functions here are the same functions on 32-bit counters. *)
From Verif Require Import Base Conc SlotModel VectorModel DequeModel UnorderedModel UConcModel UEraseModel.

(** vector push_back / pop_back up to the claim of a slot: vector_detail.cuh 188-197, 247-255.  pop_back's position is computed in int from
    the decremented value (--_size is fetch_sub(1) - 1, atomic_detail.cuh). *)
Definition vctl32 (cap : nat) (c : Z) (k : qkind) (n : nat) : cres Z :=
  let capz := Z.of_nat cap in
  match k, n with
  | KPushBack, 0%nat => if clamp_size capz c =? capz then CReject else CGo c 1
  | KPushBack, _ => if (0 <=? c) && (c <? capz) then CClaim (to_int32 (c + 1)) (Z.to_nat c) else COob (to_int32 (c + 1))
  | KPopBack, 0%nat => if clamp_size capz c =? 0 then CReject else CGo c 1
  | KPopBack, _ => let pos := to_int32 (c - 1) in if (0 <=? pos) && (pos <? capz) then CClaim pos (Z.to_nat pos) else COob pos
  | _, _ => CReject
  end.

(** deque: deque_detail.cuh 208-222, 266-280, 327-341, 395-409.  _begin and _end are unsigned and kept below the capacity by
    fetch_inc_mod / fetch_dec_mod (C26), as in [dctl]. *)
Definition dctl32 (cap : nat) (c : dcnt) (k : qkind) (n : nat) : cres dcnt :=
  let capz := Z.of_nat cap in
  match n with
  | 0%nat =>
    if clamp_size capz (c_n c) =? (if is_push k then capz else 0) then CReject else CGo c 1
  | 1%nat =>
    if is_push k then
      let c' := {| c_n := to_int32 (c_n c + 1); c_begin := c_begin c; c_end := c_end c |} in
      if c_n c <? capz then CGo c' 2 else COob c'
    else
      let c' := {| c_n := to_int32 (c_n c - 1); c_begin := c_begin c; c_end := c_end c |} in
      if 0 <? c_n c then CGo c' 2 else COob c'
  | _ =>
    match k with
    | KPushBack => CClaim {| c_n := c_n c; c_begin := c_begin c; c_end := inc_mod capz (c_end c) |} (Z.to_nat (c_end c))
    | KPopBack => CClaim {| c_n := c_n c; c_begin := c_begin c; c_end := dec_mod capz (c_end c) |} (Z.to_nat (dec_reconstruct capz (c_end c)))
    | KPushFront => CClaim {| c_n := c_n c; c_begin := dec_mod capz (c_begin c); c_end := c_end c |} (Z.to_nat (dec_reconstruct capz (c_begin c)))
    | KPopFront => CClaim {| c_n := c_n c; c_begin := inc_mod capz (c_begin c); c_end := c_end c |} (Z.to_nat (c_begin c))
    end
  end.

Section ustep32.
  Context {K V : Type} (kf : V -> K) (hash : K -> Z) (keq : K -> K -> bool) (bc E : nat).
  (** a result of a step with _occupied_count and the counter of _excess_list_positions taken to 32 bits.  A step changes at most one of
      them, by one, and what it does besides that does not depend on the changed value (a pop_back at counter -2^31 is out of bounds
      with or without the wrap), so wrapping the result is wrapping the increment. *)
  Definition wrap32 (s : cshared V) : cshared V :=
    {| c_values := c_values s; c_off := c_off s; c_occ := c_occ s; c_locks := c_locks s; c_count := to_int32 (c_count s);
       c_ex := with_c (c_ex s) (to_int32 (q_c (c_ex s))) |}.
  (** insert / erase / find of unordered_base_detail.cuh, as [ustep] resp. [estep], on 32-bit counters *)
  Definition ustep32 (tid : nat) (s : cshared V) (t : cthread K V) : option (cshared V * cthread K V) :=
    match ustep kf hash keq bc E tid s t with Some (s', t') => Some (wrap32 s', t') | None => None end.
  Definition estep32 (tid : nat) (s : cshared V) (t : cthread K V) : option (cshared V * cthread K V) :=
    match estep kf hash keq bc E tid s t with Some (s', t') => Some (wrap32 s', t') | None => None end.
End ustep32.
