(** Heterogeneous lookups of unordered_map / unordered_set: find, contains and count with an object [x : L] of another type than the key
    (is_transparent hash and key equality).  Models unordered_base_detail.cuh 546-564, 595-706: the _impl templates on KeyLike. *)
From Verif Require Import Base VectorModel BitModel UnorderedModel.

Section like.
  Context {K V L : Type} (kf : V -> K).
  (** the overloads _hash(x) and _key_equal(key, x) of a transparent hash and key equality *)
  Context (hashL : L -> Z) (eqL : K -> L -> bool).
  Implicit Types u : utab V.

  (** 553-564 bucket_impl(const KeyLike&) *)
  Definition bucket_like u (x : L) : outcome Z :=
    let! r := fibonacci_hashing (hashL x) (u_bc u) in
    require (0 <=? r) && (r <? u_bc u) in Ret r.
  (** 659, 671: occupied(i) && _key_equal(_key_from_value(_values[i]), x) *)
  Definition entry_like u (i : Z) (x : L) : outcome bool :=
    let! b := u_occupied u i in
    if (b : bool) then let! v := u_value u i in Ret (eqL (kf v) x) else Ret false.
  (** 667-679 *)
  Fixpoint find_like_loop (fuel : nat) u (x : L) (key_index : Z) : outcome Z :=
    match fuel with
    | O => Hang
    | S fuel =>
      let! o := zat (u_off u) key_index in
      if o =? 0 then Ret (total_count u)
      else
        let key_index := key_index + o in
        let! b := entry_like u key_index x in
        if (b : bool) then Ret key_index else find_like_loop fuel u x key_index
    end.
  (** 652-682 find_impl (find(const KeyLike&), 634-650): the position of the returned iterator, total_count() for end() *)
  Definition find_like u (x : L) : outcome Z :=
    let! key_index := bucket_like u x in
    let! b := entry_like u key_index x in
    if (b : bool) then Ret key_index else find_like_loop (walk_fuel u) u x key_index.
  (** 691-706 contains(const KeyLike&), contains_impl *)
  Definition contains_like u (x : L) : outcome bool := let! p := find_like u x in Ret (negb (p =? total_count u)).
  (** 602-617 count(const KeyLike&), count_impl *)
  Definition count_like u (x : L) : outcome Z := let! b := contains_like u x in Ret (if (b : bool) then 1 else 0).
End like.
