(** Model of src/stdgpu/impl/bit_detail.h.
    A value of an unsigned type of width [w] (w = numeric_limits<T>::digits) is an integer in
    [0, 2^w); every assignment to a variable of type T wraps modulo 2^w explicitly. *)
From Verif Require Import Base.

(** Conversion to the unsigned type of width w (C++ assignment to T). *)
Definition wrap (w x : Z) : Z := x mod 2 ^ w.

(** bit_detail.h 27-32 has_single_bit: (number != 0) && !(number & (number - 1)) *)
Definition has_single_bit (w number : Z) : bool :=
  negb (number =? 0) && (Z.land number (wrap w (number - 1)) =? 0).

(** bit_detail.h 43-47 and 66-70: the loop  for (i = 0; i < digits; ++i) result |= result >> i *)
Definition smear (w : Z) (result : Z) : Z :=
  fold_left (fun r i => Z.lor r (Z.shiftr r i)) (seqZ 0 w) result.

(** bit_detail.h 34-55 bit_ceil *)
Definition bit_ceil (w number : Z) : Z :=
  let result := number in
  let result := wrap w (result + (if result =? 0 then 1 else 0)) in  (* result += (result == 0) *)
  let result := wrap w (result - 1) in                                 (* result-- *)
  let result := smear w result in
  wrap w (result + 1).                                                 (* result++ *)

(** bit_detail.h 57-77 bit_floor; ~ is the complement modulo 2^w *)
Definition bit_floor (w number : Z) : Z :=
  if number =? 0 then 0 else
  let result := smear w number in
  Z.land result (wrap w (Z.lnot (Z.shiftr result 1))).

(** bit_detail.h 79-90 bit_mod; the contract EXPECTS(has_single_bit(divider)) is the UB branch *)
Definition bit_mod (w number divider : Z) : outcome Z :=
  if has_single_bit w divider then Ret (Z.land number (wrap w (divider - 1))) else UB.

(** bit_detail.h 92-111 bit_width; loop: while (shifted >>= 1) ++result.
    The loop runs on fuel, [Hang] if the fuel does not suffice. *)
Fixpoint bit_width_loop (w : Z) (fuel : nat) (shifted result : Z) : outcome Z :=
  match fuel with
  | O => Hang
  | S fuel =>
    let shifted := Z.shiftr shifted 1 in
    if shifted =? 0 then Ret result
    else bit_width_loop w fuel shifted (wrap w (result + 1))
  end.
Definition bit_width (w : Z) (fuel : nat) (number : Z) : outcome Z :=
  if number =? 0 then Ret 0 else bit_width_loop w fuel number 1.

(** bit_detail.h 113-129 popcount; loop: for (; cleared; ++result) cleared &= cleared - 1.
    The int result is unbounded here (it is at most w). *)
Fixpoint popcount_loop (w : Z) (fuel : nat) (cleared result : Z) : outcome Z :=
  match fuel with
  | O => Hang
  | S fuel =>
    if cleared =? 0 then Ret result
    else popcount_loop w fuel (Z.land cleared (wrap w (cleared - 1))) (result + 1)
  end.
Definition popcount (w : Z) (fuel : nat) (number : Z) : outcome Z :=
  popcount_loop w fuel number 0.

(** bit_detail.h 131-152 bit_cast (and limits_detail.h 33-50 simple_bit_cast): an object is its list of bytes;
    the result object starts with indeterminate bytes [None], the loop copies byte by byte. *)
Definition bit_cast_bytes (size : nat) (object_bytes : list Z) : list (option Z) :=
  fold_left (fun result i => <[i := object_bytes !! i]> result) (seq 0 size) (replicate size None).

(** bit_cast as a function between two types, given how their values and object representations (bytes)
    correspond: [rep] yields the bytes of a value, [val] the value denoted by bytes. *)
Definition bit_cast {From To : Type} (size : nat) (rep : From -> list Z) (val : list Z -> To) (x : From) : outcome To :=
  match mapM id (bit_cast_bytes size (rep x)) with
  | Some bytes => Ret (val bytes)
  | None => UB  (* an indeterminate byte is left in the result *)
  end.
