(** Model of src/stdgpu/impl/unordered_base_detail.cuh (unordered_map and unordered_set are thin wrappers around it)
    for one caller at a time.  Positions are integers as index_t in the code; every array access checks its bounds
    (UB otherwise), reading a value requires a living object.  Bitset, mutex_array and atomic<int> members are the
    list-of-bool / integer views justified by C08, C12 and C15; _excess_list_positions is the vector of VectorModel.v. *)
From Verif Require Import Base Conc SlotModel Lifetime VectorModel BitModel.

Definition zat {A} (l : list A) (i : Z) : outcome A :=
  require 0 <=? i in match l !! Z.to_nat i with Some x => Ret x | None => UB end.

(** ** Sizes *)
(** value of static_cast<float>(n) for 0 <= n: round to nearest, ties to even, 24 significant bits *)
Definition float_of_int (n : Z) : Z :=
  let e := Z.log2 n - 23 in
  if e <=? 0 then n
  else
    let q := n / 2 ^ e in
    let r := n mod 2 ^ e in
    let q := if (r <? 2 ^ (e - 1)) || ((r =? 2 ^ (e - 1)) && Z.even q) then q else q + 1 in
    q * 2 ^ e.
(** 34-48 expected_collisions: ceil(n * (1 - (1 - 1/k)^(n-1))), in exact rational arithmetic
    (the code uses long double; its rounding is not modelled) *)
Definition expected_collisions (k n : Z) : outcome Z :=
  require (0 <? k) && (0 <? n) in
  let d := k ^ (n - 1) in
  let result := - ((- (n * (d - (k - 1) ^ (n - 1)))) / d) in
  require 0 <=? result in Ret result.
(** 1254-1275: bucket count (default_max_load_factor() is 1, 50-54) and excess count of createDeviceObject(capacity) *)
Definition bucket_count_for (capacity : Z) : Z := to_int32 (bit_ceil 64 (float_of_int capacity)).
Definition excess_count_for (capacity : Z) : outcome Z :=
  let! c := expected_collisions (bucket_count_for capacity) capacity in Ret (c + 1).

(** 56-85 fibonacci_hashing.  static_cast<index_t> of the shifted product wraps to int *)
Definition fib_multiplier : Z := 11400714819323198485.
Definition fibonacci_hashing (hash bucket_count : Z) : outcome Z :=
  let! w := bit_width 64 64 (wrap 64 bucket_count) in
  let max_bit_width_result := w - 1 in
  if max_bit_width_result <=? 0 then Ret 0
  else
    let dropped_bit_width := 64 - max_bit_width_result in
    let improved_hash := Z.lxor hash (Z.shiftr hash dropped_bit_width) in
    let result := to_int32 (Z.shiftr (wrap 64 (fib_multiplier * improved_hash)) dropped_bit_width) in
    require (0 <=? result) && (result <? bucket_count) in
    Ret result.

Inductive operation_status := success | failed_collision | failed_no_action_required.

Section unordered.
  (** key_type, value_type, _key_from_value, _hash, _key_equal *)
  Context {K V : Type} (kf : V -> K) (hash : K -> Z) (keq : K -> K -> bool).
  (** is_destroy_optimizable<Value>(); the order in which parallel loops run their calls *)
  Context (opt : bool) (ord : nat -> list nat).

  Record utab := {
    u_bc : Z;                          (* _bucket_count *)
    u_values : list (option V);        (* _values; None: no living object *)
    u_off : list Z;                    (* _offsets *)
    u_occ : list bool;                 (* _occupied *)
    u_locks : list bool;               (* _locks *)
    u_count : Z;                       (* _occupied_count *)
    u_excess : vec Z;                  (* _excess_list_positions *)
    u_indices : list Z;                (* _range_indices *)
    u_ev : list event                  (* ghost: lifetime events of the values *)
  }.
  Definition set_off (u : utab) (p : Z) (o : Z) := {| u_bc := u_bc u; u_values := u_values u; u_off := <[Z.to_nat p := o]> (u_off u);
    u_occ := u_occ u; u_locks := u_locks u; u_count := u_count u; u_excess := u_excess u; u_indices := u_indices u; u_ev := u_ev u |}.
  Definition set_occ (u : utab) (p : Z) (b : bool) := {| u_bc := u_bc u; u_values := u_values u; u_off := u_off u;
    u_occ := <[Z.to_nat p := b]> (u_occ u); u_locks := u_locks u; u_count := u_count u; u_excess := u_excess u; u_indices := u_indices u; u_ev := u_ev u |}.
  Definition set_lock (u : utab) (p : Z) (b : bool) := {| u_bc := u_bc u; u_values := u_values u; u_off := u_off u;
    u_occ := u_occ u; u_locks := <[Z.to_nat p := b]> (u_locks u); u_count := u_count u; u_excess := u_excess u; u_indices := u_indices u; u_ev := u_ev u |}.
  Definition set_count (u : utab) (n : Z) := {| u_bc := u_bc u; u_values := u_values u; u_off := u_off u;
    u_occ := u_occ u; u_locks := u_locks u; u_count := to_int32 n; u_excess := u_excess u; u_indices := u_indices u; u_ev := u_ev u |}.
  Definition set_excess (u : utab) (e : vec Z) := {| u_bc := u_bc u; u_values := u_values u; u_off := u_off u;
    u_occ := u_occ u; u_locks := u_locks u; u_count := u_count u; u_excess := e; u_indices := u_indices u; u_ev := u_ev u |}.
  Definition set_indices (u : utab) (r : list Z) := {| u_bc := u_bc u; u_values := u_values u; u_off := u_off u;
    u_occ := u_occ u; u_locks := u_locks u; u_count := u_count u; u_excess := u_excess u; u_indices := r; u_ev := u_ev u |}.
  (** allocator_traits::construct / destroy (memory_detail.h 599-627) on _values[p] *)
  Definition u_construct (u : utab) (p : Z) (v : V) : outcome utab :=
    require 0 <=? p in
    match u_values u !! Z.to_nat p with
    | Some _ => Ret {| u_bc := u_bc u; u_values := <[Z.to_nat p := Some v]> (u_values u); u_off := u_off u;
        u_occ := u_occ u; u_locks := u_locks u; u_count := u_count u; u_excess := u_excess u; u_indices := u_indices u;
        u_ev := u_ev u ++ [EvConstruct (InSlot (Z.to_nat p))] |}
    | None => UB
    end.
  Definition u_destroy (u : utab) (p : Z) : outcome utab :=
    require 0 <=? p in
    match u_values u !! Z.to_nat p with
    | Some (Some _) => Ret {| u_bc := u_bc u; u_values := <[Z.to_nat p := None]> (u_values u); u_off := u_off u;
        u_occ := u_occ u; u_locks := u_locks u; u_count := u_count u; u_excess := u_excess u; u_indices := u_indices u;
        u_ev := u_ev u ++ [EvDestroy (InSlot (Z.to_nat p))] |}
    | _ => UB
    end.
  (** _offsets[p] = o, _occupied.set/reset(p), lock of entry p: accesses inside the arrays *)
  Definition write_off (u : utab) (p o : Z) : outcome utab := let! _ := zat (u_off u) p in Ret (set_off u p o).
  Definition write_occ (u : utab) (p : Z) (b : bool) : outcome utab := let! _ := zat (u_occ u) p in Ret (set_occ u p b).
  Definition unlock (u : utab) (p : Z) : outcome utab := let! _ := zat (u_locks u) p in Ret (set_lock u p false).
  (** mutex_array reference::try_lock *)
  Definition try_lock (u : utab) (p : Z) : outcome (utab * bool) :=
    let! b := zat (u_locks u) p in if (b : bool) then Ret (u, false) else Ret (set_lock u p true, true).
  (** try_lock(lock1, lock2) (mutex_detail.cuh 156-191): -1 if both acquired, else nothing is held *)
  Definition try_lock2 (u : utab) (p q : Z) : outcome (utab * Z) :=
    let! (u, b) := try_lock u p in
    if (b : bool) then
      let! (u, b2) := try_lock u q in
      if (b2 : bool) then Ret (u, -1) else let! u := unlock u p in Ret (u, 1)
    else Ret (u, 0).

  (** 1148-1153 total_count, 1141-1146 bucket_count *)
  Definition total_count (u : utab) : Z := Z.of_nat (length (u_occ u)).
  (** 1068-1076 occupied *)
  Definition u_occupied (u : utab) (n : Z) : outcome bool :=
    require (0 <=? n) && (n <? total_count u) in zat (u_occ u) n.
  (** 1110-1132 size *)
  Definition u_size (u : utab) : outcome Z :=
    require (0 <=? u_count u) && (u_count u <=? total_count u) in Ret (u_count u).
  (** 1078-1109 empty, full *)
  Definition u_empty (u : utab) : outcome bool := let! n := u_size u in Ret (n =? 0).
  Definition u_full (u : utab) : outcome bool := let! n := u_size u in Ret (n =? total_count u).
  (** 546-564 bucket, bucket_impl *)
  Definition u_bucket (u : utab) (key : K) : outcome Z :=
    let! r := fibonacci_hashing (hash key) (u_bc u) in
    require (0 <=? r) && (r <? u_bc u) in Ret r.
  (** reading *it for an entry *)
  Definition u_value (u : utab) (p : Z) : outcome V :=
    let! o := zat (u_values u) p in match o with Some v => Ret v | None => UB end.

  (** a walk along a linked list that visits more entries than there are is a cycle: Hang *)
  Definition walk_fuel (u : utab) : nat := S (length (u_off u)).
  (** 659, 671: occupied(i) && _key_equal(_key_from_value(_values[i]), key) *)
  Definition entry_matches (u : utab) (i : Z) (key : K) : outcome bool :=
    let! b := u_occupied u i in
    if (b : bool) then let! v := u_value u i in Ret (keq (kf v) key) else Ret false.
  (** 667-679 *)
  Fixpoint find_loop (fuel : nat) (u : utab) (key : K) (key_index : Z) : outcome Z :=
    match fuel with
    | O => Hang
    | S fuel =>
      let! o := zat (u_off u) key_index in
      if o =? 0 then Ret (total_count u)                      (* end() *)
      else
        let key_index := key_index + o in
        let! b := entry_matches u key_index key in
        if (b : bool) then Ret key_index else find_loop fuel u key key_index
    end.
  (** 619-682 find, find_impl: the position of the returned iterator, total_count() for end() *)
  Definition u_find (u : utab) (key : K) : outcome Z :=
    let! key_index := u_bucket u key in
    let! b := entry_matches u key_index key in
    if (b : bool) then Ret key_index else find_loop (walk_fuel u) u key key_index.
  (** 684-706 contains, 595-617 count *)
  Definition u_contains (u : utab) (key : K) : outcome bool := let! p := u_find u key in Ret (negb (p =? total_count u)).
  Definition u_count_of (u : utab) (key : K) : outcome Z := let! b := u_contains u key in Ret (if (b : bool) then 1 else 0).

  (** 566-593 bucket_size *)
  Fixpoint bucket_size_loop (fuel : nat) (u : utab) (key_index result : Z) : outcome Z :=
    match fuel with
    | O => Hang
    | S fuel =>
      let! o := zat (u_off u) key_index in
      if o =? 0 then Ret result
      else
        let key_index := key_index + o in
        let! b := u_occupied u key_index in
        bucket_size_loop fuel u key_index (if (b : bool) then result + 1 else result)
    end.
  Definition u_bucket_size (u : utab) (n : Z) : outcome Z :=
    require n <? u_bc u in
    let! b := u_occupied u n in
    bucket_size_loop (walk_fuel u) u n (if (b : bool) then 1 else 0).

  (** 915-928 find_linked_list_end *)
  Fixpoint list_end_loop (fuel : nat) (u : utab) (e : Z) : outcome Z :=
    match fuel with
    | O => Hang
    | S fuel => let! o := zat (u_off u) e in if o =? 0 then Ret e else list_end_loop fuel u (e + o)
    end.
  Definition find_linked_list_end (u : utab) (start : Z) : outcome Z := list_end_loop (walk_fuel u) u start.
  (** 930-956 find_previous_entry_position *)
  Fixpoint previous_loop (fuel : nat) (u : utab) (entry key_index previous : Z) : outcome Z :=
    match fuel with
    | O => Hang
    | S fuel =>
      let! o := zat (u_off u) key_index in
      if o =? 0 then Ret previous
      else
        let key_index := key_index + o in
        if key_index =? entry then Ret previous else previous_loop fuel u entry key_index key_index
    end.
  Definition find_previous_entry_position (u : utab) (entry start : Z) : outcome Z := previous_loop (walk_fuel u) u entry start start.

  (** 708-809 try_insert: state, position of the returned iterator, status *)
  Definition u_try_insert (u : utab) (value : V) : outcome (utab * Z * operation_status) :=
    let block := kf value in
    let! c := u_contains u block in
    if negb c then
      let! bucket_index := u_bucket u block in
      let! b := u_occupied u bucket_index in
      if negb b then
        let! (u, locked) := try_lock u bucket_index in
        if (locked : bool) then
          let! c := u_contains u block in
          let! b := u_occupied u bucket_index in
          if negb c && negb b then
            let! u := u_construct u bucket_index value in
            let u := set_count u (u_count u + 1) in
            let! u := write_occ u bucket_index true in
            let! u := unlock u bucket_index in
            Ret (u, bucket_index, success)
          else
            let! u := unlock u bucket_index in Ret (u, total_count u, failed_collision)
        else Ret (u, total_count u, failed_collision)
      else
        let! linked_list_end := find_linked_list_end u bucket_index in
        let! (u, locked) := try_lock u linked_list_end in
        if (locked : bool) then
          let! checked_linked_list_end := find_linked_list_end u bucket_index in
          let! c := u_contains u block in
          if negb c && (linked_list_end =? checked_linked_list_end) then
            let! (e, popped) := v_pop_back (u_excess u) in
            let u := set_excess u e in
            match popped with
            | None => let! u := unlock u linked_list_end in Ret (u, total_count u, failed_collision)
            | Some new_linked_list_end =>
              let! u := u_construct u new_linked_list_end value in
              let! u := write_off u new_linked_list_end 0 in
              let u := set_count u (u_count u + 1) in
              let! u := write_occ u new_linked_list_end true in
              let! u := write_off u linked_list_end (new_linked_list_end - linked_list_end) in
              let! u := unlock u linked_list_end in
              Ret (u, new_linked_list_end, success)
            end
          else
            let! u := unlock u linked_list_end in Ret (u, total_count u, failed_collision)
        else Ret (u, total_count u, failed_collision)
    else Ret (u, total_count u, failed_no_action_required).

  (** 967-994 insert: the loop runs on fuel; (state, position of the returned iterator, inserted) *)
  Fixpoint insert_loop (fuel : nat) (u : utab) (value : V) (result : Z * operation_status) : outcome (utab * Z * bool) :=
    match fuel with
    | O => Hang
    | S fuel =>
      match result.2 with
      | failed_collision =>
        let! f := u_full u in
        if negb f && negb (v_empty (u_excess u)) then
          let! (u, p, st) := u_try_insert u value in insert_loop fuel u value (p, st)
        else Ret (u, result.1, false)
      | success => Ret (u, result.1, true)
      | failed_no_action_required => Ret (u, result.1, false)
      end
    end.
  Definition u_insert (fuel : nat) (u : utab) (value : V) : outcome (utab * Z * bool) :=
    insert_loop fuel u value (total_count u, failed_collision).

  (** 811-913 try_erase *)
  Definition u_try_erase (u : utab) (key : K) : outcome (utab * operation_status) :=
    let! position := u_find u key in
    if negb (position =? total_count u) then
      let! bucket_index := u_bucket u key in
      if position =? bucket_index then
        let! (u, locked) := try_lock u position in
        if (locked : bool) then
          let! checked := u_find u key in
          if position =? checked then
            let! u := write_occ u position false in
            let u := set_count u (u_count u - 1) in
            let! u := u_destroy u position in
            let! u := unlock u position in
            Ret (u, success)
          else let! u := unlock u position in Ret (u, failed_collision)
        else Ret (u, failed_collision)
      else
        let! previous_position := find_previous_entry_position u position bucket_index in
        let! (u, r) := try_lock2 u position previous_position in
        if r =? -1 then
          let! checked := u_find u key in
          let! checked_previous := find_previous_entry_position u position bucket_index in
          if (position =? checked) && (previous_position =? checked_previous) then
            let! op := zat (u_off u) position in
            let! u :=
              (if negb (op =? 0) then
                 let! oq := zat (u_off u) previous_position in write_off u previous_position (oq + op)
               else write_off u previous_position 0) in
            let! u := write_occ u position false in
            let u := set_count u (u_count u - 1) in
            let! u := u_destroy u position in
            let! (e, _) := v_push_back (u_excess u) position in
            let u := set_excess u e in
            let! u := unlock u position in
            let! u := unlock u previous_position in
            Ret (u, success)
          else
            let! u := unlock u position in let! u := unlock u previous_position in Ret (u, failed_collision)
        else Ret (u, failed_collision)
    else Ret (u, failed_no_action_required).
  (** 1019-1043 erase *)
  Fixpoint erase_loop (fuel : nat) (u : utab) (key : K) (result : operation_status) : outcome (utab * Z) :=
    match fuel with
    | O => Hang
    | S fuel =>
      match result with
      | failed_collision => let! (u, st) := u_try_erase u key in erase_loop fuel u key st
      | success => Ret (u, 1)
      | failed_no_action_required => Ret (u, 0)
      end
    end.
  Definition u_erase (fuel : nat) (u : utab) (key : K) : outcome (utab * Z) := erase_loop fuel u key failed_collision.

  (** 996-1017, 1045-1066 insert(begin, end) and erase(begin, end): for_each_index over the range *)
  Definition u_for_each {S : Type} (n : nat) (f : nat -> S -> outcome S) (s : S) : outcome S :=
    fold_left (fun acc i => let! s := acc in f i s) (ord n) (Ret s).
  Definition u_insert_range (fuel : nat) (u : utab) (values : list V) : outcome utab :=
    u_for_each (length values) (fun i u => match values !! i with Some v => let! (u, _, _) := u_insert fuel u v in Ret u | None => UB end) u.
  Definition u_erase_range (fuel : nat) (u : utab) (keys : list K) : outcome utab :=
    u_for_each (length keys) (fun i u => match keys !! i with Some k => let! (u, _) := u_erase fuel u k in Ret u | None => UB end) u.

  (** 136-207 device_range: the positions; the calls of unordered_base_collect_positions in the order [ord] of their
      _range_indices_end++ *)
  Definition collect_position (u : utab) (i : nat) (s : list Z * Z) : outcome (list Z * Z) :=
    let! b := u_occupied u (Z.of_nat i) in
    if (b : bool) then
      let! _ := zat s.1 s.2 in Ret (<[Z.to_nat s.2 := Z.of_nat i]> s.1, s.2 + 1)
    else Ret s.
  Definition u_range (u : utab) : outcome (utab * list Z) :=
    let! (r, e) := u_for_each (Z.to_nat (total_count u)) (collect_position u) (u_indices u, 0) in
    Ret (set_indices u r, take (Z.to_nat e) r).

  (** 520-544 destroy_values, 1220-1252 clear *)
  Definition destroy_value (n : nat) (u : utab) : outcome utab :=
    let! b := u_occupied u (Z.of_nat n) in if (b : bool) then u_destroy u (Z.of_nat n) else Ret u.
  (** vector_detail.cuh 360-368 vector_clear_iota; iota (C49) writes value + i to element i; int elements *)
  Definition v_clear_iota (v : vec Z) (value : Z) : outcome (vec Z) :=
    let n := length (v_data v) in
    let! d := u_for_each n (fun i d => match d !! i with Some _ => Ret (<[i := Some (value + Z.of_nat i)]> d) | None => UB end) (v_data v) in
    Ret {| v_n := v_capacity v; v_data := d; v_occ := replicate (length (v_occ v)) true; v_locks := v_locks v; v_ev := v_ev v |}.
  (** if the value type is trivially destructible no destructor runs; the values' lifetimes are counted as ended *)
  Definition u_forget (u : utab) : utab := {| u_bc := u_bc u; u_values := replicate (length (u_values u)) None; u_off := u_off u;
    u_occ := u_occ u; u_locks := u_locks u; u_count := u_count u; u_excess := u_excess u; u_indices := u_indices u; u_ev := u_ev u |}.
  Definition u_clear (u : utab) : outcome utab :=
    let! b := u_empty u in
    if (b : bool) then Ret u
    else
      let! u := if opt then Ret (u_forget u) else u_for_each (Z.to_nat (total_count u)) destroy_value u in
      let! e := v_clear_iota (u_excess u) (u_bc u) in
      Ret {| u_bc := u_bc u; u_values := u_values u; u_off := replicate (length (u_off u)) 0;
             u_occ := replicate (length (u_occ u)) false; u_locks := u_locks u; u_count := 0; u_excess := e;
             u_indices := u_indices u; u_ev := u_ev u |}.
  (** 1310-1348 destroyDeviceObject: the values; freeing of the arrays is in the memory model *)
  Definition unordered_destroy (u : utab) : outcome utab := if opt then Ret u else u_clear u.

  (** 1275-1308 createDeviceObject, given the two counts; [junk]: initial content of the index array *)
  Definition unordered_create (junk : list Z) (bucket_count excess_count : Z) : outcome utab :=
    let total := bucket_count + excess_count in
    require total <=? INT_MAX in
    require 0 <? total in
    let n := Z.to_nat total in
    let! e := vec_create excess_count in
    let! e := v_clear_iota e bucket_count in
    require v_full e in
    Ret {| u_bc := bucket_count; u_values := replicate n None; u_off := replicate n 0; u_occ := replicate n false;
           u_locks := replicate n false; u_count := 0; u_excess := e; u_indices := take n (junk ++ replicate n 0); u_ev := [] |}.
  (** 1254-1275 *)
  Definition unordered_create_for (junk : list Z) (capacity : Z) : outcome utab :=
    require 0 <? capacity in
    let! excess_count := excess_count_for capacity in
    unordered_create junk (bucket_count_for capacity) excess_count.

  (** ** valid() *)
  (** transform_reduce_index(total_count(), true, logical_and, f): every f(i) is evaluated (C50) *)
  Definition for_all (n : Z) (f : Z -> outcome bool) : outcome bool :=
    fold_left (fun acc i => let! a := acc in let! b := f (Z.of_nat i) in Ret (a && b)) (seq 0 (Z.to_nat n)) (Ret true).
  (** 209-254 offset_inside_range, offset_range_valid *)
  Definition offset_inside_range (u : utab) (i : Z) : outcome bool :=
    let! o := zat (u_off u) i in
    let linked_entry := i + o in
    Ret (negb ((linked_entry <? 0) || (total_count u <=? linked_entry))).
  (** 256-296 count_visits; 298-350 loop_free *)
  Fixpoint visit_loop (fuel : nat) (u : utab) (linked_list : Z) (flags : list Z) : outcome (list Z) :=
    match fuel with
    | O => Hang
    | S fuel =>
      let! o := zat (u_off u) linked_list in
      if o =? 0 then Ret flags
      else
        let linked_list := linked_list + o in
        let! n := zat flags linked_list in
        let flags := <[Z.to_nat linked_list := n + 1]> flags in
        if 1 <? n + 1 then Ret flags else visit_loop fuel u linked_list flags
    end.
  Definition count_visits (u : utab) (i : nat) (flags : list Z) : outcome (list Z) :=
    let! n := zat flags (Z.of_nat i) in
    visit_loop (walk_fuel u) u (Z.of_nat i) (<[i := n + 1]> flags).
  Definition loop_free (u : utab) : outcome bool :=
    let! flags := u_for_each (Z.to_nat (u_bc u)) (count_visits u) (replicate (Z.to_nat (total_count u)) 0) in
    for_all (total_count u) (fun i => let! n := zat flags i in Ret (n <=? 1)).
  (** 352-398 value_reachable, values_reachable *)
  Definition value_reachable (u : utab) (i : Z) : outcome bool :=
    let! b := u_occupied u i in
    if (b : bool) then let! v := u_value u i in u_contains u (kf v) else Ret true.
  (** 400-451 values_unique, unique *)
  Definition values_unique (u : utab) (i : Z) : outcome bool :=
    let! b := u_occupied u i in
    if (b : bool) then let! v := u_value u i in let! p := u_find u (kf v) in Ret (p =? i) else Ret true.
  (** 453-468 occupied_count_valid *)
  Definition u_occupied_count_valid (u : utab) : outcome bool := let! n := u_size u in Ret (n =? bcount (u_occ u)).
  (** && between outcomes: the right operand is not evaluated if the left one is false *)
  Definition oand (a : outcome bool) (b : outcome bool) : outcome bool := let! x := a in if (x : bool) then b else Ret false.
  (** 1190-1218 valid *)
  Definition u_valid (u : utab) : outcome bool :=
    if total_count u =? 0 then Ret true
    else oand (for_all (total_count u) (offset_inside_range u))
        (oand (loop_free u)
        (oand (for_all (total_count u) (value_reachable u))
        (oand (for_all (total_count u) (values_unique u))
        (oand (u_occupied_count_valid u)
        (oand (Ret (bcount (u_locks u) =? 0)) (Ret (v_valid (u_excess u)))))))).

  (** ** calls of one caller; iterators in results are replaced by the values they point to *)
  Inductive uop :=
  | UInsert (v : V) | UErase (k : K) | UFind (k : K) | UContains (k : K) | UCount (k : K) | UClear
  | USize | UEmpty | UFull | UMaxSize | UBucketSize (n : Z) | URange | UValid
  | UInsertRange (vs : list V) | UEraseRange (ks : list K).
  Inductive ures := UUnit | UBool (b : bool) | UNum (n : Z) | UIns (ok : bool) (o : option V) | UFound (o : option V) | UList (l : list V).

  Definition deref (u : utab) (p : Z) : outcome (option V) :=
    if p =? total_count u then Ret None else let! v := u_value u p in Ret (Some v).
  Definition u_step (fuel : nat) (u : utab) (op : uop) : outcome (utab * ures) :=
    match op with
    | UInsert v =>
      let! (u, p, ok) := u_insert fuel u v in
      let! o := deref u p in Ret (u, UIns ok o)
    | UErase k => let! (u, n) := u_erase fuel u k in Ret (u, UNum n)
    | UFind k => let! p := u_find u k in let! o := deref u p in Ret (u, UFound o)
    | UContains k => let! b := u_contains u k in Ret (u, UBool b)
    | UCount k => let! n := u_count_of u k in Ret (u, UNum n)
    | UClear => let! u := u_clear u in Ret (u, UUnit)
    | USize => let! n := u_size u in Ret (u, UNum n)
    | UEmpty => let! b := u_empty u in Ret (u, UBool b)
    | UFull => let! b := u_full u in Ret (u, UBool b)
    | UMaxSize => Ret (u, UNum (total_count u))
    | UBucketSize n => let! m := u_bucket_size u n in Ret (u, UNum m)
    | URange =>
      let! (u, idx) := u_range u in
      match mapM (fun i => u_values u !! Z.to_nat i ≫= id) idx with Some l => Ret (u, UList l) | None => UB end
    | UValid => let! b := u_valid u in Ret (u, UBool b)
    | UInsertRange vs => let! u := u_insert_range fuel u vs in Ret (u, UUnit)
    | UEraseRange ks => let! u := u_erase_range fuel u ks in Ret (u, UUnit)
    end.
  Fixpoint u_run (fuel : nat) (u : utab) (ops : list uop) : outcome (utab * list ures) :=
    match ops with
    | [] => Ret (u, [])
    | op :: ops => let! (u1, r) := u_step fuel u op in let! (u2, rs) := u_run fuel u1 ops in Ret (u2, r :: rs)
    end.
End unordered.
Arguments utab : clear implicits.
Arguments uop : clear implicits.
Arguments ures : clear implicits.
