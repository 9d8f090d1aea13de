(** Model of src/stdgpu/impl/deque_detail.cuh, queue_detail.cuh and stack_detail.cuh.
    Part 1: the operations executed by one caller at a time.  The members _size, _data, _occupied, _locks and the
    event trace have the same types and accessors as those of vector and reuse its record [vec]; size(), empty(),
    full(), valid() (451-538, 642-657, 760-780) are line for line the same functions as in vector.
    Part 2: the counter accesses of the four operations for the concurrent machine of SlotModel.v. *)
From Verif Require Import Base Conc AtomicModel SlotModel Lifetime VectorModel.

(** atomic<unsigned int>::fetch_inc_mod / fetch_dec_mod: value stored when [old] is found (AtomicModel.v, C08) *)
Definition inc_mod (cap old : Z) : Z := new_value 32 (AIncMod cap) old.
Definition dec_mod (cap old : Z) : Z := new_value 32 (ADecMod cap) old.
(** 287, 350: the value stored by fetch_dec_mod, reconstructed from the value it returned *)
Definition dec_reconstruct (cap old : Z) : Z := if old =? 0 then cap - 1 else old - 1.
Definition fits_int (z : Z) : bool := (- 2 ^ 31 <=? z) && (z <=? INT_MAX).

Section deque.
  Context {T : Type} (opt : bool) (ord : nat -> list nat).

  Record deq := { d_v : vec T; d_begin : Z; d_end : Z; d_indices : list Z }.
  Definition d_set_v (d : deq) (v : vec T) := {| d_v := v; d_begin := d_begin d; d_end := d_end d; d_indices := d_indices d |}.
  Definition d_set_begin (d : deq) (b : Z) := {| d_v := d_v d; d_begin := b; d_end := d_end d; d_indices := d_indices d |}.
  Definition d_set_end (d : deq) (e : Z) := {| d_v := d_v d; d_begin := d_begin d; d_end := e; d_indices := d_indices d |}.
  Definition d_set_indices (d : deq) (r : list Z) := {| d_v := d_v d; d_begin := d_begin d; d_end := d_end d; d_indices := r |}.

  (** 38-68 createDeviceObject; the values in the freshly allocated _range_indices are arbitrary ([junk]) *)
  Definition deq_create (junk : list Z) (capacity : Z) : outcome deq :=
    let! v := vec_create capacity in
    Ret {| d_v := v; d_begin := 0; d_end := 0; d_indices := take (Z.to_nat capacity) (junk ++ replicate (Z.to_nat capacity) 0) |}.

  Definition d_capacity (d : deq) : Z := v_capacity (d_v d).
  Definition d_size (d : deq) : Z := v_size (d_v d).
  Definition d_empty (d : deq) : bool := v_empty (d_v d).
  Definition d_full (d : deq) : bool := v_full (d_v d).
  Definition d_valid (d : deq) : bool := v_valid (d_v d).

  (** 158-164 operator[]: _data[(begin + n) % capacity()], signed 32 bit arithmetic; reading through the reference
      requires a living element *)
  Definition d_index (d : deq) (n : Z) : outcome T :=
    let index_to_wrap := d_begin d + n in
    require fits_int index_to_wrap in
    let i := Z.rem index_to_wrap (d_capacity d) in
    require 0 <=? i in
    match v_data (d_v d) !! Z.to_nat i with Some (Some x) => Ret x | _ => UB end.
  (** 140-149 at: checks occupied(n), not the wrapped position *)
  Definition d_at (d : deq) (n : Z) : outcome T :=
    require 0 <=? n in require n <? d_size d in
    let! o := v_occupied (d_v d) n in require o in d_index d n.
  (** 173-192 front, back *)
  Definition d_front (d : deq) : outcome T := d_index d 0.
  Definition d_back (d : deq) : outcome T := d_index d (d_size d - 1).

  (** the loops 217-244, 289-310, 352-379, 416-437 run by a single caller on slot [pos] *)
  Definition slot_push (v : vec T) (pos : Z) (x : T) : outcome (vec T) :=
    let p := Z.to_nat pos in
    match (v_locks v !! p : option bool), (v_occ v !! p : option bool) with
    | Some false, Some false => Ret (v_set_occ (v_construct v p x) p true)
    | Some _, Some _ => Hang
    | _, _ => UB
    end.
  Definition slot_pop (v : vec T) (pos : Z) : outcome (vec T * T) :=
    let p := Z.to_nat pos in
    match (v_locks v !! p : option bool), (v_occ v !! p : option bool) with
    | Some false, Some true =>
      let v := v_set_occ v p false in
      match v_data v !! p with
      | Some (Some y) => Ret (v_destroy (v_log (v_log v (EvRead (InSlot p))) (EvConstruct Result)) p, y)
      | _ => UB
      end
    | Some _, Some _ => Hang
    | _, _ => UB
    end.

  (** 202-258 push_back *)
  Definition d_push_back (d : deq) (x : T) : outcome (deq * bool) :=
    if d_full d then Ret (d, false)
    else
      let current_size := v_n (d_v d) in                              (* _size++ *)
      let d := d_set_v d (v_set_n (d_v d) (to_int32 (current_size + 1))) in
      if current_size <? d_capacity d then
        let push_position := d_end d in                               (* _end.fetch_inc_mod(capacity()) *)
        let d := d_set_end d (inc_mod (d_capacity d) (d_end d)) in
        let! v := slot_push (d_v d) push_position x in
        Ret (d_set_v d v, true)
      else Ret (d, false).

  (** 260-319 pop_back *)
  Definition d_pop_back (d : deq) : outcome (deq * option T) :=
    let d := d_set_v d (v_log (d_v d) EvInitCopy) in                  (* 264 *)
    if d_empty d then Ret (d, None)
    else
      let current_size := v_n (d_v d) in                              (* _size-- *)
      let d := d_set_v d (v_set_n (d_v d) (to_int32 (current_size - 1))) in
      if 0 <? current_size then
        let pop_position := dec_reconstruct (d_capacity d) (d_end d) in
        let d := d_set_end d (dec_mod (d_capacity d) (d_end d)) in    (* _end.fetch_dec_mod(capacity()) *)
        let! (v, y) := slot_pop (d_v d) pop_position in
        Ret (d_set_v d v, Some y)
      else Ret (d, None).

  (** 329-387 push_front *)
  Definition d_push_front (d : deq) (x : T) : outcome (deq * bool) :=
    if d_full d then Ret (d, false)
    else
      let current_size := v_n (d_v d) in
      let d := d_set_v d (v_set_n (d_v d) (to_int32 (current_size + 1))) in
      if current_size <? d_capacity d then
        let push_position := dec_reconstruct (d_capacity d) (d_begin d) in
        let d := d_set_begin d (dec_mod (d_capacity d) (d_begin d)) in
        let! v := slot_push (d_v d) push_position x in
        Ret (d_set_v d v, true)
      else Ret (d, false).

  (** 389-446 pop_front *)
  Definition d_pop_front (d : deq) : outcome (deq * option T) :=
    let d := d_set_v d (v_log (d_v d) EvInitCopy) in
    if d_empty d then Ret (d, None)
    else
      let current_size := v_n (d_v d) in
      let d := d_set_v d (v_set_n (d_v d) (to_int32 (current_size - 1))) in
      if 0 <? current_size then
        let pop_position := d_begin d in
        let d := d_set_begin d (inc_mod (d_capacity d) (d_begin d)) in
        let! (v, y) := slot_pop (d_v d) pop_position in
        Ret (d_set_v d v, Some y)
      else Ret (d, None).

  (** memory_detail.h 137-171 unoptimized_destroy(first, last) with last - first elements *)
  Definition destroy_range (first last : Z) (v : vec T) : outcome (vec T) :=
    v_for_each ord (Z.to_nat (last - first)) (fun i v => destroy_slot (Z.to_nat first + i) v) v.
  (** 582-633 clear *)
  Definition d_clear (d : deq) : outcome deq :=
    if d_empty d then Ret d
    else
      let begin := d_begin d in
      let end_ := d_end d in
      let! v :=
        (if opt then Ret (v_forget (d_v d))
         else if d_full d then destroy_range 0 (d_capacity d) (d_v d)
         else if begin <=? end_ then destroy_range begin end_ (d_v d)
         else let! v := destroy_range 0 end_ (d_v d) in destroy_range begin (d_capacity d) v) in
      Ret {| d_v := {| v_n := 0; v_data := v_data v; v_occ := replicate (length (v_occ v)) false; v_locks := v_locks v; v_ev := v_ev v |};
             d_begin := 0; d_end := 0; d_indices := d_indices d |}.
  (** 77-107 destroyDeviceObject: the elements; freeing of the arrays is in the memory model *)
  Definition deq_destroy (d : deq) : outcome deq := if opt then Ret d else d_clear d.

  (** iota over _range_indices (numeric_detail.h 56-90): writes value + i at begin + i *)
  Definition iota_indices (first n : nat) (value : Z) (r : list Z) : outcome (list Z) :=
    fold_left (fun acc i => let! r := acc in
      match r !! (first + i)%nat with Some _ => Ret (<[(first + i)%nat := value + Z.of_nat i]> r) | None => UB end)
      (ord n) (Ret r).
  (** 666-704 (and 714-752) device_range: the positions, then the elements they select *)
  Definition d_range (d : deq) : outcome (deq * list Z * list T) :=
    let begin := d_begin d in
    let end_ := d_end d in
    let! r :=
      (if d_full d then iota_indices 0 (length (d_indices d)) 0 (d_indices d)
       else if begin <=? end_ then iota_indices 0 (Z.to_nat (end_ - begin)) begin (d_indices d)
       else
         require fits_int (end_ + d_capacity d) in
         let! r := iota_indices 0 (Z.to_nat end_) 0 (d_indices d) in
         iota_indices (Z.to_nat end_) (Z.to_nat (end_ + d_capacity d - begin - end_)) begin r) in
    let idx := take (Z.to_nat (d_size d)) r in
    match mapM (fun i => v_data (d_v d) !! Z.to_nat i ≫= id) idx with
    | Some vals => Ret (d_set_indices d r, idx, vals)
    | None => UB
    end.

  (** calls of one caller and their results *)
  Inductive dop :=
  | DPushBack (x : T) | DPopBack | DPushFront (x : T) | DPopFront | DClear
  | DSize | DEmpty | DFull | DIndex (n : Z) | DAt (n : Z) | DFront | DBack | DRange | DValid.

  Definition deq_step (d : deq) (op : dop) : outcome (deq * vres T) :=
    match op with
    | DPushBack x => let! (d, b) := d_push_back d x in Ret (d, RBool b)
    | DPopBack => let! (d, o) := d_pop_back d in Ret (d, ROpt o)
    | DPushFront x => let! (d, b) := d_push_front d x in Ret (d, RBool b)
    | DPopFront => let! (d, o) := d_pop_front d in Ret (d, ROpt o)
    | DClear => let! d := d_clear d in Ret (d, RUnit)
    | DSize => Ret (d, RNum (d_size d))
    | DEmpty => Ret (d, RBool (d_empty d))
    | DFull => Ret (d, RBool (d_full d))
    | DIndex n => let! x := d_index d n in Ret (d, RVal x)
    | DAt n => let! x := d_at d n in Ret (d, RVal x)
    | DFront => let! x := d_front d in Ret (d, RVal x)
    | DBack => let! x := d_back d in Ret (d, RVal x)
    | DRange => let! (d, _, vals) := d_range d in Ret (d, RList vals)
    | DValid => Ret (d, RBool (d_valid d))
    end.
  Fixpoint deq_run (d : deq) (ops : list dop) : outcome (deq * list (vres T)) :=
    match ops with
    | [] => Ret (d, [])
    | op :: ops => let! (d1, r) := deq_step d op in let! (d2, rs) := deq_run d1 ops in Ret (d2, r :: rs)
    end.

  (** queue_detail.cuh 41-53: push = push_back, pop = pop_front; stack_detail.cuh 41-53: push = push_back,
      pop = pop_back *)
  Inductive aqop := APush (x : T) | APop.
  Definition queue_op (op : aqop) : dop := match op with APush x => DPushBack x | APop => DPopFront end.
  Definition stack_op (op : aqop) : dop := match op with APush x => DPushBack x | APop => DPopBack end.
End deque.
Arguments deq : clear implicits.
Arguments dop : clear implicits.
Arguments aqop : clear implicits.

(** ** Part 2: concurrent push/pop.  Counter accesses: number 0 the load of _size in full()/empty(), number 1 the
    increment/decrement of _size with its check, number 2 the fetch_inc_mod/fetch_dec_mod on _begin or _end.
    _size is an unbounded integer here (see SlotModel.v), _begin and _end are 32 bit unsigned. *)
Record dcnt := { c_n : Z; c_begin : Z; c_end : Z }.
Definition dctl (cap : nat) (c : dcnt) (k : qkind) (n : nat) : cres dcnt :=
  let capz := Z.of_nat cap in
  match n with
  | 0%nat =>
    if clamp_size capz (c_n c) =? (if is_push k then capz else 0) then CReject else CGo c 1
  | 1%nat =>
    if is_push k then
      let c' := {| c_n := c_n c + 1; c_begin := c_begin c; c_end := c_end c |} in
      if c_n c <? capz then CGo c' 2 else COob c'
    else
      let c' := {| c_n := c_n c - 1; c_begin := c_begin c; c_end := c_end c |} in
      if 0 <? c_n c then CGo c' 2 else COob c'
  | _ =>
    match k with
    | KPushBack => CClaim {| c_n := c_n c; c_begin := c_begin c; c_end := inc_mod capz (c_end c) |} (Z.to_nat (c_end c))
    | KPopBack => CClaim {| c_n := c_n c; c_begin := c_begin c; c_end := dec_mod capz (c_end c) |} (Z.to_nat (dec_reconstruct capz (c_end c)))
    | KPushFront => CClaim {| c_n := c_n c; c_begin := dec_mod capz (c_begin c); c_end := c_end c |} (Z.to_nat (dec_reconstruct capz (c_begin c)))
    | KPopFront => CClaim {| c_n := c_n c; c_begin := inc_mod capz (c_begin c); c_end := c_end c |} (Z.to_nat (c_begin c))
    end
  end.

Section conc.
  Context {T : Type}.
  (** number of slots from slot [b] on to slot [p], going around the ring *)
  Definition ring_dist (cap b p : nat) : nat := if (p <? b)%nat then (p + cap - b)%nat else (p - b)%nat.
  (** a deque of capacity [cap] holding [l], the front being in slot [b], before any concurrent call *)
  Definition deq_conc_start (cap b : nat) (l : list T) : qshared T dcnt :=
    {| q_c := {| c_n := Z.of_nat (length l); c_begin := Z.of_nat b; c_end := Z.of_nat ((b + length l) mod cap) |};
       q_data := (fun p => l !! ring_dist cap b p) <$> seq 0 cap;
       q_occ := (fun p => bool_decide (ring_dist cap b p < length l)%nat) <$> seq 0 cap;
       q_locks := replicate cap false |}.
  Definition as_deq (s : qshared T dcnt) : deq T :=
    {| d_v := {| v_n := c_n (q_c s); v_data := q_data s; v_occ := q_occ s; v_locks := q_locks s; v_ev := [] |};
       d_begin := c_begin (q_c s); d_end := c_end (q_c s); d_indices := replicate (length (q_occ s)) 0 |}.
End conc.
