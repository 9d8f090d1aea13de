(** Models of impl/functional_detail.h (hash), limits.h / impl/limits_detail.h (integer types) and the insert iterators of
    impl/iterator_detail.h.  Types are those of the LP64 x86-64 Linux target: char is signed, wchar_t is a signed 32-bit type. *)
From Verif Require Import Base UnorderedModel.

Inductive int_type :=
| Tbool | Tchar | Tschar | Tuchar | Twchar | Tchar16 | Tchar32 | Tshort | Tushort | Tint | Tuint | Tlong | Tulong | Tllong | Tullong.

(** ** limits.h 123-1318: digits and is_signed *)
Definition CHAR_BIT : Z := 8.
Definition size_of (t : int_type) : Z :=
  match t with
  | Tbool | Tchar | Tschar | Tuchar => 1
  | Tchar16 | Tshort | Tushort => 2
  | Twchar | Tchar32 | Tint | Tuint => 4
  | Tlong | Tulong | Tllong | Tullong => 8
  end.
(** char: static_cast<char>(-1) < 0, wchar_t alike (limits.h 256, 498) *)
Definition limits_is_signed (t : int_type) : bool :=
  match t with
  | Tchar | Tschar | Twchar | Tshort | Tint | Tlong | Tllong => true
  | _ => false
  end.
Definition limits_digits (t : int_type) : Z :=
  match t with
  | Tbool => 1
  | Tchar => CHAR_BIT - (if limits_is_signed Tchar then 1 else 0)
  | Tschar => CHAR_BIT - 1
  | Tuchar => CHAR_BIT
  | Twchar => CHAR_BIT * size_of Twchar - (if limits_is_signed Twchar then 1 else 0)
  | Tchar16 | Tchar32 | Tushort | Tuint | Tulong | Tullong => CHAR_BIT * size_of t
  | Tshort | Tint | Tlong | Tllong => CHAR_BIT * size_of t - 1
  end.
(** limits_detail.h 98-640: min() and max(), the macros of <climits>, <cstdint> and <cwchar> with their values *)
Definition limits_min (t : int_type) : Z :=
  match t with
  | Tbool => 0                          (* false *)
  | Tchar => -128                       (* CHAR_MIN *)
  | Tschar => -128                      (* SCHAR_MIN *)
  | Twchar => -2147483648               (* WCHAR_MIN *)
  | Tshort => -32768                    (* SHRT_MIN *)
  | Tint => -2147483648                 (* INT_MIN *)
  | Tlong => -9223372036854775808       (* LONG_MIN *)
  | Tllong => -9223372036854775808      (* LLONG_MIN *)
  | Tuchar | Tchar16 | Tchar32 | Tushort | Tuint | Tulong | Tullong => 0
  end.
Definition limits_max (t : int_type) : Z :=
  match t with
  | Tbool => 1                          (* true *)
  | Tchar => 127                        (* CHAR_MAX *)
  | Tschar => 127                       (* SCHAR_MAX *)
  | Tuchar => 255                       (* UCHAR_MAX *)
  | Twchar => 2147483647                (* WCHAR_MAX *)
  | Tchar16 => 65535                    (* UINT_LEAST16_MAX *)
  | Tchar32 => 4294967295               (* UINT_LEAST32_MAX *)
  | Tshort => 32767                     (* SHRT_MAX *)
  | Tushort => 65535                    (* USHRT_MAX *)
  | Tint => 2147483647                  (* INT_MAX *)
  | Tuint => 4294967295                 (* UINT_MAX *)
  | Tlong => 9223372036854775807        (* LONG_MAX *)
  | Tulong => 18446744073709551615      (* ULONG_MAX *)
  | Tllong => 9223372036854775807       (* LLONG_MAX *)
  | Tullong => 18446744073709551615     (* ULLONG_MAX *)
  end.
(** lowest() is min() for all of them; bool: false *)
Definition limits_lowest (t : int_type) : Z := match t with Tbool => 0 | _ => limits_min t end.

(** ** functional_detail.h 60-82: hash of the integer types, static_cast<std::size_t>(key) *)
Definition hash_int (t : int_type) (key : Z) : Z := key mod 2 ^ 64.
(** functional_detail.h 48-56: enumerations with underlying type t; an enumerator is given by its underlying value *)
Definition hash_enum (t : int_type) (key : Z) : Z := hash_int t key.
(** functional_detail.h 84-94: float and double, given by their bit pattern (bit_cast is the identity on these, C04); the hash of
    long double converts to double first and is not modelled *)
Definition hash_float (bits : Z) : Z := hash_int Tuint bits.
Definition hash_double (bits : Z) : Z := hash_int Tulong bits.

(** ** iterator_detail.h 229-312, 314-400: the proxy object that dereferencing back_inserter(c), front_inserter(c) or inserter(c) at any
    position gives; assigning a value to it calls push_back, push_front or insert of (a copy of) c, which shares its memory with c *)
Section inserter.
  Context {C V R : Type} (op : C -> V -> outcome (C * R)).
  Definition proxy_assign (c : C) (value : V) : outcome C := let! (c, _) := op c value in Ret c.
  (** algorithm_detail.h 114-163 copy to an insert iterator: one assignment for every index, in the order of the execution policy *)
  Definition copy_to_inserter (order : list nat) (xs : list V) (c : C) : outcome C :=
    fold_left (fun acc i => let! c := acc in match xs !! i with Some x => proxy_assign c x | None => UB end) order (Ret c).
End inserter.
(** iterator_detail.h 296-312: insert_iterator_proxy calls c.insert(value) and drops the result *)
Definition insert_op {K V : Type} (kf : V -> K) (hash : K -> Z) (keq : K -> K -> bool) (fuel : nat) (u : utab V) (v : V) : outcome (utab V * bool) :=
  let! (u, _, ok) := u_insert kf hash keq fuel u v in Ret (u, ok).
