(** Specification for UtilModel.v: the values of the integer types, IEEE equality, successive insertion. *)
From Verif Require Import Base UtilModel.

(** z is a value of the type: a pattern of size_of bytes, read as two's complement number if signed *)
Definition signed_type (t : int_type) : Prop := t ∈ [Tchar; Tschar; Twchar; Tshort; Tint; Tlong; Tllong].
Definition value_of_type (t : int_type) (z : Z) : Prop :=
  match t with
  | Tbool => z = 0 \/ z = 1
  | _ => exists pattern, 0 <= pattern < 2 ^ (8 * size_of t) /\
      (signed_type t -> z = if pattern <? 2 ^ (8 * size_of t - 1) then pattern else pattern - 2 ^ (8 * size_of t)) /\
      (~ signed_type t -> z = pattern)
  end.

(** operator== of the binary interchange format with m fraction bits and e exponent bits (float: 23, 8; double: 52, 11) on bit patterns *)
Section ieee.
  Context (m e : Z).
  Definition negative (u : Z) : bool := Z.odd (u / 2 ^ (m + e)).
  Definition exponent (u : Z) : Z := (u / 2 ^ m) mod 2 ^ e.
  Definition fraction (u : Z) : Z := u mod 2 ^ m.
  Definition is_nan (u : Z) : bool := (exponent u =? 2 ^ e - 1) && negb (fraction u =? 0).
  Definition is_infinite (u : Z) : bool := (exponent u =? 2 ^ e - 1) && (fraction u =? 0).
  (** the number, in units of the smallest positive number of the format *)
  Definition magnitude (u : Z) : Z := if exponent u =? 0 then fraction u else (2 ^ m + fraction u) * 2 ^ (exponent u - 1).
  Definition number (u : Z) : Z := if negative u then - magnitude u else magnitude u.
  Definition ieee_eq (u v : Z) : bool :=
    if is_nan u || is_nan v then false
    else if is_infinite u || is_infinite v then is_infinite u && is_infinite v && eqb (negative u) (negative v)
    else number u =? number v.
  Definition pattern (u : Z) : Prop := 0 <= u < 2 ^ (m + e + 1).
  Definition is_zero (u : Z) : Prop := u = 0 \/ u = 2 ^ (m + e).
End ieee.
Definition float_eq : Z -> Z -> bool := ieee_eq 23 8.
Definition double_eq : Z -> Z -> bool := ieee_eq 52 11.

(** the values in the order of the indices *)
Definition in_order {V} (order : list nat) (xs : list V) : list V := omap (fun i => xs !! i) order.
