(** Property theorems C01-C07: bit.h *)
From Verif Require Import Base BitModel BitSpec BitProofs.

(** C01: for every unsigned width w and every value x of that width. *)
Theorem C01_has_single_bit_iff_power_of_two : forall w x, 0 < w -> 0 <= x < 2 ^ w ->
  has_single_bit w x = true <-> exists k, 0 <= k < w /\ x = 2 ^ k.
Proof. exact has_single_bit_spec. Qed.
Print Assumptions C01_has_single_bit_iff_power_of_two.
Example C01_ex : has_single_bit 8 128 = true /\ has_single_bit 8 96 = false /\ has_single_bit 8 0 = false.
Proof. vm_compute. auto. Qed.

(** C02: if 2^k is the least power of two >= x, bit_ceil returns it when it fits and 0 otherwise;
    such a k always exists. *)
Theorem C02_bit_ceil_least_power : forall w x k, 0 < w -> 0 <= x < 2 ^ w ->
  least_pow2_above x k -> bit_ceil w x = if k <? w then 2 ^ k else 0.
Proof. exact bit_ceil_spec. Qed.
Print Assumptions C02_bit_ceil_least_power.
Theorem C02_least_power_exists : forall x, 0 <= x -> exists k, least_pow2_above x k.
Proof. exact least_pow2_exists. Qed.
Print Assumptions C02_least_power_exists.
Example C02_ex : bit_ceil 8 65 = 128 /\ bit_ceil 8 129 = 0 /\ bit_ceil 8 0 = 1 /\ bit_ceil 64 (2 ^ 40 + 1) = 2 ^ 41.
Proof. vm_compute. auto. Qed.

(** C03 *)
Theorem C03_bit_floor_greatest_power : forall w x, 0 < w -> 0 < x < 2 ^ w ->
  exists k, 0 <= k < w /\ bit_floor w x = 2 ^ k /\ 2 ^ k <= x /\ forall j, 0 <= j -> 2 ^ j <= x -> j <= k.
Proof. exact bit_floor_spec. Qed.
Print Assumptions C03_bit_floor_greatest_power.
Theorem C03_bit_floor_zero : forall w, bit_floor w 0 = 0.
Proof. exact (fun w => eq_refl). Qed.
Print Assumptions C03_bit_floor_zero.
Example C03_ex : bit_floor 8 255 = 128 /\ bit_floor 32 65 = 64.
Proof. vm_compute. auto. Qed.

(** C04: the modulus for power-of-two dividers, contract violation for all others. *)
Theorem C04_bit_mod_is_modulus : forall w x d, 0 < w -> 0 <= x < 2 ^ w -> 0 <= d < 2 ^ w ->
  (is_pow2 w d -> bit_mod w x d = Ret (x mod d)) /\ (~ is_pow2 w d -> bit_mod w x d = UB).
Proof. exact bit_mod_spec. Qed.
Print Assumptions C04_bit_mod_is_modulus.
Example C04_ex : bit_mod 16 1001 64 = Ret (1001 mod 64) /\ bit_mod 16 5 6 = UB.
Proof. vm_compute. auto. Qed.

(** C05: termination within w iterations and minimality of the result. *)
Theorem C05_bit_width_minimal : forall w fuel x, 0 < w -> 0 <= x < 2 ^ w -> w <= Z.of_nat fuel ->
  exists r, bit_width w fuel x = Ret r /\ 0 <= r <= w /\ x < 2 ^ r /\ forall j, 0 <= j -> x < 2 ^ j -> r <= j.
Proof. exact bit_width_spec. Qed.
Print Assumptions C05_bit_width_minimal.
Example C05_ex : bit_width 8 8 255 = Ret 8 /\ bit_width 8 8 16 = Ret 5 /\ bit_width 8 8 0 = Ret 0.
Proof. vm_compute. auto. Qed.

(** C06: popcount terminates (at most w rounds plus the final test) and counts the one bits. *)
Theorem C06_popcount_counts_ones : forall w fuel x, 0 < w -> 0 <= x < 2 ^ w -> w < Z.of_nat fuel ->
  popcount w fuel x = Ret (ones_count w x).
Proof. exact popcount_spec. Qed.
Print Assumptions C06_popcount_counts_ones.
Example C06_ex : popcount 8 9 181 = Ret 5.
Proof. vm_compute. auto. Qed.

(** C07: for any two types of n bytes ([rep]: object representation of a value, [val]: value denoted by a
    representation; the intermediate type has no padding, so it keeps every representation): the result
    carries exactly the source's bytes, casting back returns the original, distinct values stay distinct. *)
Theorem C07_bit_cast_lossless : forall (From To : Type) (n : nat)
    (repF : From -> list Z) (valF : list Z -> From) (repT : To -> list Z) (valT : list Z -> To),
  (forall x, length (repF x) = n) -> (forall x, valF (repF x) = x) ->
  (forall bytes, length bytes = n -> repT (valT bytes) = bytes) ->
  (forall x, exists y, bit_cast n repF valT x = Ret y /\ repT y = repF x /\ bit_cast n repT valF y = Ret x) /\
  (forall x x' y, bit_cast n repF valT x = Ret y -> bit_cast n repF valT x' = Ret y -> x = x').
Proof. exact @bit_cast_roundtrip. Qed.
Print Assumptions C07_bit_cast_lossless.
Example C07_ex : bit_cast 4 (fun x : Z => [x mod 256; x / 256 mod 256; x / 65536 mod 256; x / 16777216]) id 0x12345678
   = Ret [0x78; 0x56; 0x34; 0x12].
Proof. vm_compute. reflexivity. Qed.
