(** Model of src/stdgpu/impl/vector_detail.cuh.
    Part 1: the host/device operations executed by one caller at a time.
    Part 2: the counter accesses of push_back/pop_back for the concurrent machine of SlotModel.v.
    Layers below (bitset, mutex_array, atomic<int>) are represented by the list-of-bool / integer views that
    C12, C15 and C08 justify. *)
From Verif Require Import Base Conc SlotModel Lifetime.

(** 32-bit two's complement value of an int expression that is stored with wrap-around (atomic<int>) *)
Definition to_int32 (z : Z) : Z := (z + 2 ^ 31) mod 2 ^ 32 - 2 ^ 31.
Definition INT_MAX : Z := 2 ^ 31 - 1.

Section vector.
  Context {T : Type}.
  (** memory_detail.h 36-41 is_destroy_optimizable<T>() *)
  Context (opt : bool).
  (** the order in which for_each_index runs its n calls (unspecified: the theorems hold for all) *)
  Context (ord : nat -> list nat).

  (** the members: _size, _data (None: no living object), _occupied, _locks; plus the ghost event trace *)
  Record vec := { v_n : Z; v_data : list (option T); v_occ : list bool; v_locks : list bool; v_ev : list event }.
  Definition v_set_n (v : vec) (n : Z) := {| v_n := n; v_data := v_data v; v_occ := v_occ v; v_locks := v_locks v; v_ev := v_ev v |}.
  Definition v_set_occ (v : vec) (p : nat) (b : bool) :=
    {| v_n := v_n v; v_data := v_data v; v_occ := <[p := b]> (v_occ v); v_locks := v_locks v; v_ev := v_ev v |}.
  Definition v_log (v : vec) (e : event) := {| v_n := v_n v; v_data := v_data v; v_occ := v_occ v; v_locks := v_locks v; v_ev := v_ev v ++ [e] |}.
  (** allocator_traits::construct / destroy on a slot (memory_detail.h 599-627) *)
  Definition v_construct (v : vec) (p : nat) (x : T) : vec :=
    {| v_n := v_n v; v_data := <[p := Some x]> (v_data v); v_occ := v_occ v; v_locks := v_locks v; v_ev := v_ev v ++ [EvConstruct (InSlot p)] |}.
  Definition v_destroy (v : vec) (p : nat) : vec :=
    {| v_n := v_n v; v_data := <[p := None]> (v_data v); v_occ := v_occ v; v_locks := v_locks v; v_ev := v_ev v ++ [EvDestroy (InSlot p)] |}.

  (** 40-62 createDeviceObject *)
  Definition vec_create (capacity : Z) : outcome vec :=
    require 0 <? capacity in
    let n := Z.to_nat capacity in
    Ret {| v_n := 0; v_data := replicate n None; v_occ := replicate n false; v_locks := replicate n false; v_ev := [] |}.

  (** 551-555 capacity: _occupied.size() *)
  Definition v_capacity (v : vec) : Z := Z.of_nat (length (v_occ v)).
  (** 484-542 size: clamped to [0, capacity] *)
  Definition clamp_size (cap n : Z) : Z := if n <? 0 then 0 else if cap <? n then cap else n.
  Definition v_size (v : vec) : Z := clamp_size (v_capacity v) (v_n v).
  (** 452-482 empty, full *)
  Definition v_empty (v : vec) : bool := v_size v =? 0.
  Definition v_full (v : vec) : bool := v_size v =? v_capacity v.
  (** 766-774 occupied *)
  Definition v_occupied (v : vec) (n : Z) : outcome bool :=
    require (0 <=? n) && (n <? v_capacity v) in
    match (v_occ v !! Z.to_nat n : option bool) with Some b => Ret b | None => UB end.
  (** 138-143 operator[]; reading through the reference requires a living element *)
  Definition v_index (v : vec) (n : Z) : outcome T :=
    require (0 <=? n) in
    match v_data v !! Z.to_nat n with Some (Some x) => Ret x | _ => UB end.
  (** 120-129 at *)
  Definition v_at (v : vec) (n : Z) : outcome T :=
    require 0 <=? n in require n <? v_size v in
    let! o := v_occupied v n in require o in v_index v n.
  (** 152-171 front, back *)
  Definition v_front (v : vec) : outcome T := v_index v 0.
  Definition v_back (v : vec) : outcome T := v_index v (v_size v - 1).

  (** 181-238 push_back by a single caller.  The while loop takes the lock, finds the slot free and leaves after
      one iteration, or spins forever (Hang) if the lock is held or the slot stays occupied *)
  Definition v_push_back (v : vec) (x : T) : outcome (vec * bool) :=
    if v_full v then Ret (v, false)
    else
      let pos := v_n v in                                   (* _size++ returns the old value *)
      let v := v_set_n v (to_int32 (v_n v + 1)) in
      if (0 <=? pos) && (pos <? v_capacity v) then
        let p := Z.to_nat pos in
        match (v_locks v !! p : option bool), (v_occ v !! p : option bool) with
        | Some false, Some false => Ret (v_set_occ (v_construct v p x) p true, true)
        | Some _, Some _ => Hang
        | _, _ => UB
        end
      else Ret (v, false).

  (** 240-299 pop_back by a single caller; None: (undefined value, false) *)
  Definition v_pop_back (v : vec) : outcome (vec * option T) :=
    let v := v_log v EvInitCopy in                          (* 244: popped(_data[0], false) *)
    if v_empty v then Ret (v, None)
    else
      let pos := to_int32 (v_n v - 1) in                    (* --_size returns the new value *)
      let v := v_set_n v pos in
      if (0 <=? pos) && (pos <? v_capacity v) then
        let p := Z.to_nat pos in
        match (v_locks v !! p : option bool), (v_occ v !! p : option bool) with
        | Some false, Some true =>
          let v := v_set_occ v p false in
          match v_data v !! p with
          | Some (Some y) =>                                (* 272-276 construct(&popped, _data[pos], true); 277 destroy *)
            Ret (v_destroy (v_log (v_log v (EvRead (InSlot p))) (EvConstruct Result)) p, Some y)
          | _ => UB
          end
        | Some _, Some _ => Hang
        | _, _ => UB
        end
      else Ret (v, None).

  (** 304-332 vector_insert<true>::operator() *)
  Definition vector_insert (begin : nat) (values : list T) (i : nat) (v : vec) : outcome vec :=
    match values !! i, (v_occ v !! (begin + i)%nat : option bool) with
    | Some x, Some _ => Ret (v_set_occ (v_construct v (begin + i) x) (begin + i) true)
    | _, _ => UB
    end.
  (** 334-359 vector_erase<true>::operator() *)
  Definition vector_erase (begin : nat) (i : nat) (v : vec) : outcome vec :=
    match v_data v !! (begin + i)%nat with
    | Some (Some _) => Ret (v_set_occ (v_destroy v (begin + i)) (begin + i) false)
    | _ => UB
    end.
  (** algorithm_detail.h 52-63 for_each_index *)
  Definition v_for_each (n : nat) (f : nat -> vec -> outcome vec) (v : vec) : outcome vec :=
    fold_left (fun acc i => let! v := acc in f i v) (ord n) (Ret v).

  (** 380-414 insert(position, begin, end); [position] is the offset from device_begin, [values] the range.
      index_t is int: size + N must not overflow *)
  Definition v_insert (v : vec) (position : Z) (values : list T) : outcome vec :=
    if negb (position =? v_size v) then Ret v
    else
      let N := to_int32 (Z.of_nat (length values)) in
      let new_size := v_size v + N in
      require (- 2 ^ 31 <=? new_size) && (new_size <=? INT_MAX) in
      if v_capacity v <? new_size then Ret v
      else
        require 0 <=? N in
        let! v := v_for_each (Z.to_nat N) (vector_insert (Z.to_nat (v_size v)) values) v in
        Ret (v_set_n v new_size).

  (** 423-450 erase(begin, end); offsets from device_begin; a range with begin > end is outside the contract *)
  Definition v_erase (v : vec) (begin end_ : Z) : outcome vec :=
    if negb (end_ =? v_size v) then Ret v
    else
      let N := to_int32 (end_ - begin) in
      let new_size := v_size v - N in
      require (- 2 ^ 31 <=? new_size) && (new_size <=? INT_MAX) in
      if new_size <? 0 then Ret v
      else
        require 0 <=? N in
        let! v := v_for_each (Z.to_nat N) (vector_erase (Z.to_nat new_size)) v in
        Ret (v_set_n v new_size).

  (** detail::unoptimized_destroy (memory_detail.h 137-171): destroys the n elements from _data[0] *)
  Definition destroy_slot (i : nat) (v : vec) : outcome vec :=
    match v_data v !! i with Some (Some _) => Ret (v_destroy v i) | _ => UB end.
  (** 586-612 clear.  If the element type is trivially destructible no destructor runs; the lifetime of the
      elements is counted as ended (their memory is only ever overwritten) *)
  Definition v_forget (v : vec) : vec :=
    {| v_n := v_n v; v_data := replicate (length (v_data v)) None; v_occ := v_occ v; v_locks := v_locks v; v_ev := v_ev v |}.
  Definition v_clear (v : vec) : outcome vec :=
    if v_empty v then Ret v
    else
      let! v := if opt then Ret (v_forget v) else v_for_each (Z.to_nat (v_size v)) destroy_slot v in
      Ret {| v_n := 0; v_data := v_data v; v_occ := replicate (length (v_occ v)) false; v_locks := v_locks v; v_ev := v_ev v |}.

  (** 787-795 size_valid, 776-785 occupied_count_valid, mutex_array::valid, 621-636 valid *)
  Definition bcount (l : list bool) : Z := Z.of_nat (length (filter (fun b => b = true) l)).
  Definition v_valid (v : vec) : bool :=
    if v_capacity v =? 0 then true
    else ((0 <=? v_n v) && (v_n v <=? v_capacity v)) && (v_size v =? bcount (v_occ v)) && (bcount (v_locks v) =? 0).

  (** 741-764 device_range: the elements of [_data, _data + size()) *)
  Definition v_range (v : vec) : outcome (list T) :=
    match mapM id (take (Z.to_nat (v_size v)) (v_data v)) with Some l => Ret l | None => UB end.

  (** 71-92 destroyDeviceObject: the elements; freeing of the arrays is in the memory model *)
  Definition vec_destroy (v : vec) : outcome vec := if opt then Ret v else v_clear v.

  (** calls of one caller and their results *)
  Inductive vop :=
  | VPush (x : T) | VPop | VInsert (position : Z) (values : list T) | VErase (begin end_ : Z) | VClear
  | VSize | VEmpty | VFull | VIndex (n : Z) | VAt (n : Z) | VFront | VBack | VRange | VValid.
  Inductive vres := RUnit | RBool (b : bool) | RNum (n : Z) | RVal (x : T) | ROpt (o : option T) | RList (l : list T).

  Definition vec_step (v : vec) (op : vop) : outcome (vec * vres) :=
    match op with
    | VPush x => let! (v, b) := v_push_back v x in Ret (v, RBool b)
    | VPop => let! (v, o) := v_pop_back v in Ret (v, ROpt o)
    | VInsert p l => let! v := v_insert v p l in Ret (v, RUnit)
    | VErase b e => let! v := v_erase v b e in Ret (v, RUnit)
    | VClear => let! v := v_clear v in Ret (v, RUnit)
    | VSize => Ret (v, RNum (v_size v))
    | VEmpty => Ret (v, RBool (v_empty v))
    | VFull => Ret (v, RBool (v_full v))
    | VIndex n => let! x := v_index v n in Ret (v, RVal x)
    | VAt n => let! x := v_at v n in Ret (v, RVal x)
    | VFront => let! x := v_front v in Ret (v, RVal x)
    | VBack => let! x := v_back v in Ret (v, RVal x)
    | VRange => let! l := v_range v in Ret (v, RList l)
    | VValid => Ret (v, RBool (v_valid v))
    end.
  Fixpoint vec_run (v : vec) (ops : list vop) : outcome (vec * list vres) :=
    match ops with
    | [] => Ret (v, [])
    | op :: ops => let! (v1, r) := vec_step v op in let! (v2, rs) := vec_run v1 ops in Ret (v2, r :: rs)
    end.
End vector.
Arguments vec : clear implicits.
Arguments vop : clear implicits.
Arguments vres : clear implicits.

(** ** Part 2: concurrent push_back / pop_back *)
(** accesses to _size: number 0 the load in full()/empty() (452-542), number 1 the increment/decrement
    (194, 253) and the bounds check (197, 256).  A vector has no front operations. *)
Definition vctl (cap : nat) (c : Z) (k : qkind) (n : nat) : cres Z :=
  let capz := Z.of_nat cap in
  match k, n with
  | KPushBack, 0%nat => if clamp_size capz c =? capz then CReject else CGo c 1
  | KPushBack, _ => if (0 <=? c) && (c <? capz) then CClaim (c + 1) (Z.to_nat c) else COob (c + 1)
  | KPopBack, 0%nat => if clamp_size capz c =? 0 then CReject else CGo c 1
  | KPopBack, _ => let pos := c - 1 in if (0 <=? pos) && (pos <? capz) then CClaim pos (Z.to_nat pos) else COob pos
  | _, _ => CReject
  end.

Section conc.
  Context {T : Type}.
  (** a vector of capacity [cap] holding the elements [l], before any concurrent call *)
  Definition vec_conc_start (cap : nat) (l : list T) : qshared T Z :=
    {| q_c := Z.of_nat (length l); q_data := (Some <$> l) ++ replicate (cap - length l) None;
       q_occ := replicate (length l) true ++ replicate (cap - length l) false; q_locks := replicate cap false |}.
  (** size() and valid() of such a state: the same code as [v_size], [v_valid] *)
  Definition as_vec (s : qshared T Z) : vec T :=
    {| v_n := q_c s; v_data := q_data s; v_occ := q_occ s; v_locks := q_locks s; v_ev := [] |}.
  (** calls available on a vector *)
  Definition vector_call (op : qop T) : Prop := match op with QPush KPushBack _ | QPop KPopBack => True | _ => False end.
End conc.
