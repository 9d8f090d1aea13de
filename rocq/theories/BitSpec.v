(** Specification vocabulary for the bit functions: plain arithmetic only. *)
From Verif Require Import Base.

(** x is a power of two representable in w bits *)
Definition is_pow2 (w x : Z) : Prop := exists k, 0 <= k < w /\ x = 2 ^ k.

(** 2^k is the smallest power of two that is >= x *)
Definition least_pow2_above (x k : Z) : Prop :=
  0 <= k /\ x <= 2 ^ k /\ forall j, 0 <= j -> x <= 2 ^ j -> k <= j.

(** number of indices below w whose bit is one *)
Definition ones_count (w x : Z) : Z := Z.of_nat (length (filter (fun i => Z.testbit x i = true) (seqZ 0 w))).
