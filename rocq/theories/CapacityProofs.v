(** Sizes chosen by createDeviceObject(capacity) of the unordered containers. *)
From Verif Require Import Base VectorModel VectorProofs BitModel BitSpec BitProofs UnorderedModel.

Lemma float_of_int_bounds n m : 0 < n <= 2 ^ m -> 0 <= m -> 0 < float_of_int n <= 2 ^ m.
Proof.
  intros Hn Hm. unfold float_of_int. destruct (Z.leb_spec (Z.log2 n - 23) 0) as [He|He]; [lia|].
  set (e := Z.log2 n - 23) in *.
  destruct (Z.log2_spec n ltac:(lia)) as [L1 L2].
  assert (Hq : 2 ^ 23 <= n / 2 ^ e).
  { apply Z.div_le_lower_bound; [lia|]. rewrite <- Z.pow_add_r by lia. replace (e + 23) with (Z.log2 n) by lia. exact L1. }
  destruct (Z.eq_dec n (2 ^ m)) as [->|Hne].
  - assert (Hlm : Z.log2 (2 ^ m) = m) by (apply Z.log2_pow2; lia).
    assert (Hd : 2 ^ m = 2 ^ 23 * 2 ^ e) by (rewrite <- Z.pow_add_r by lia; f_equal; lia).
    assert (Hr : 2 ^ m mod 2 ^ e = 0) by (rewrite Hd; apply Z.mod_mul; lia).
    assert (Hdiv : 2 ^ m / 2 ^ e = 2 ^ 23) by (rewrite Hd; apply Z.div_mul; lia).
    rewrite Hr. rewrite (proj2 (Z.ltb_lt 0 _)) by lia. cbn [orb]. rewrite Hdiv, <- Hd. lia.
  - assert (Hem : e + 23 < m). { assert (Hlt : 2 ^ (e + 23) < 2 ^ m) by (replace (e + 23) with (Z.log2 n) by lia; lia). apply Z.pow_lt_mono_r_iff in Hlt; lia. }
    (* 2^m is a multiple of 2^e, so q + 1 still fits *)
    assert (Hup : (n / 2 ^ e + 1) * 2 ^ e <= 2 ^ m).
    { replace (2 ^ m) with (2 ^ (m - e) * 2 ^ e) by (rewrite <- Z.pow_add_r by lia; f_equal; lia). apply Z.mul_le_mono_nonneg_r; [lia|].
      assert (n / 2 ^ e < 2 ^ (m - e)); [|lia]. apply Z.div_lt_upper_bound; [lia|]. rewrite <- Z.pow_add_r by lia. replace (e + (m - e)) with m by lia. lia. }
    destruct ((n mod 2 ^ e <? 2 ^ (e - 1)) || ((n mod 2 ^ e =? 2 ^ (e - 1)) && Z.even (n / 2 ^ e))); nia.
Qed.
(** below 2^24 the conversion to float is exact *)
Lemma float_of_int_exact n : 0 < n <= 2 ^ 24 -> float_of_int n = n.
Proof.
  intros Hn. destruct (Z.eq_dec n (2 ^ 24)) as [->|Hne]; [vm_compute; reflexivity|]. unfold float_of_int.
  assert (Z.log2 n < 24) by (apply Z.log2_lt_pow2; lia). rewrite (proj2 (Z.leb_le _ _)) by lia. reflexivity.
Qed.

Lemma bucket_count_pow2 n : 0 < n <= 2 ^ 30 -> exists k, 0 <= k <= 30 /\ bucket_count_for n = 2 ^ k /\ float_of_int n <= 2 ^ k /\ (forall j, 0 <= j -> n <= 2 ^ j -> 2 ^ k <= 2 ^ j).
Proof.
  intros Hn. destruct (float_of_int_bounds n 30 Hn ltac:(lia)) as [F1 F2]. destruct (least_pow2_exists (float_of_int n) ltac:(lia)) as [k Hk].
  unfold bucket_count_for. rewrite (bit_ceil_spec 64 (float_of_int n) k ltac:(lia) ltac:(lia) Hk). destruct Hk as (K1 & K2 & K3).
  pose proof (K3 30 ltac:(lia) F2) as K4. rewrite (proj2 (Z.ltb_lt _ _)) by lia. exists k. split; [lia|].
  assert (0 < 2 ^ k <= 2 ^ 30) by (split; [lia|apply Z.pow_le_mono_r; lia]).
  rewrite to_int32_id by (unfold INT_MAX; lia). split; [reflexivity|]. split; [exact K2|]. intros j Hj Hnj.
  apply Z.pow_le_mono_r; [lia|]. apply K3; [exact Hj|]. apply (float_of_int_bounds n j ltac:(lia) Hj).
Qed.

(** ** the number of excess entries *)
Lemma ceil_div a d : 0 < d -> - (- a / d) * d < a + d /\ a <= - (- a / d) * d.
Proof. intros Hd. pose proof (Z.mod_pos_bound (- a) d Hd). pose proof (Z.div_mod (- a) d ltac:(lia)). nia. Qed.

Lemma binomial_two (a : Z) (n : nat) : 0 <= a -> a ^ Z.of_nat (S n) + Z.of_nat (S n) * a ^ Z.of_nat n <= (a + 1) ^ Z.of_nat (S n).
Proof.
  intros Ha. induction n as [|n IH]; [cbn; lia|].
  rewrite (Nat2Z.inj_succ (S n)), !(Z.pow_succ_r _ (Z.of_nat (S n))) by lia. rewrite (Nat2Z.inj_succ n) in *. rewrite !(Z.pow_succ_r _ (Z.of_nat n)) in * by lia.
  assert (0 <= a ^ Z.of_nat n) by (apply Z.pow_nonneg; lia). nia.
Qed.
Lemma collisions_bounds k n : 0 < k -> 0 < n -> exists c, expected_collisions k n = Ret c /\ 0 <= c <= n /\ n - k <= c.
Proof.
  intros Hk Hn. unfold expected_collisions. rewrite (proj2 (Z.ltb_lt 0 k)), (proj2 (Z.ltb_lt 0 n)) by lia. cbn [andb].
  set (d := k ^ (n - 1)). set (x := (k - 1) ^ (n - 1)). assert (Hd : 0 < d) by (apply Z.pow_pos_nonneg; lia).
  assert (Hx : 0 <= x <= d) by (split; [apply Z.pow_nonneg; lia|apply Z.pow_le_mono_l; lia]).
  destruct (ceil_div (n * (d - x)) d Hd) as [C1 C2]. set (c := - (- (n * (d - x)) / d)) in *.
  assert (Hc0 : 0 <= c) by nia. rewrite (proj2 (Z.leb_le _ _)) by exact Hc0. exists c. split; [reflexivity|].
  assert (Hcn : c <= n) by nia. split; [lia|].
  (* k^n >= n (k-1)^(n-1) *)
  assert (Hbin : n * x <= k * d).
  { pose proof (binomial_two (k - 1) (Z.to_nat (n - 1)) ltac:(lia)) as H. replace (Z.of_nat (S (Z.to_nat (n - 1)))) with n in H by lia. rewrite Z2Nat.id in H by lia.
    replace (k - 1 + 1) with k in H by lia. replace (k ^ n) with (k * d) in H by (unfold d; rewrite <- Z.pow_succ_r by lia; f_equal; lia).
    assert (0 <= (k - 1) ^ n) by (apply Z.pow_nonneg; lia). fold x in H. lia. }
  nia.
Qed.
(** Bernoulli *)
Lemma bernoulli k (m : nat) : 0 < k -> Z.of_nat m <= k -> k ^ Z.of_nat m * (k - Z.of_nat m) <= (k - 1) ^ Z.of_nat m * k.
Proof.
  intros Hk. induction m as [|m IH]; intros Hm; [cbn; lia|]. specialize (IH ltac:(lia)).
  rewrite (Nat2Z.inj_succ m), !Z.pow_succ_r by lia. assert (0 < k ^ Z.of_nat m) by (apply Z.pow_pos_nonneg; lia).
  assert (0 <= (k - 1) ^ Z.of_nat m) by (apply Z.pow_nonneg; lia). nia.
Qed.
Lemma half_power k m : 0 < m -> k = 2 * m -> k ^ m <= 2 * (k - 1) ^ m.
Proof.
  intros Hm ->. pose proof (bernoulli (2 * m) (Z.to_nat m) ltac:(lia) ltac:(lia)) as H. rewrite Z2Nat.id in H by lia.
  assert (0 <= (2 * m - 1) ^ m) by (apply Z.pow_nonneg; lia). assert (0 < (2 * m) ^ m) by (apply Z.pow_pos_nonneg; lia). nia.
Qed.
(** at most three quarters of the elements are expected to collide if there are as many buckets as elements *)
Lemma collisions_three_quarters k n : 2 <= k -> (2 | k) -> 0 < n <= k -> exists c, expected_collisions k n = Ret c /\ 4 * c < 3 * n + 4.
Proof.
  intros Hk [m Em] Hn. unfold expected_collisions. rewrite (proj2 (Z.ltb_lt 0 k)), (proj2 (Z.ltb_lt 0 n)) by lia. cbn [andb].
  set (d := k ^ (n - 1)). set (x := (k - 1) ^ (n - 1)). assert (Hd : 0 < d) by (apply Z.pow_pos_nonneg; lia).
  assert (Hx : 0 <= x <= d) by (split; [apply Z.pow_nonneg; lia|apply Z.pow_le_mono_l; lia]).
  destruct (ceil_div (n * (d - x)) d Hd) as [C1 C2]. set (c := - (- (n * (d - x)) / d)) in *.
  assert (Hc0 : 0 <= c) by nia. rewrite (proj2 (Z.leb_le _ _)) by exact Hc0. exists c. split; [reflexivity|].
  assert (Hq : d <= 4 * x).
  { (* d * k^(k-n+1) = k^k <= 4 (k-1)^k = 4 x (k-1)^(k-n+1) <= 4 x k^(k-n+1) *)
    set (r := k - n + 1). assert (Hr : 0 <= r) by (unfold r; lia).
    assert (E1 : k ^ k = d * k ^ r) by (unfold d; rewrite <- Z.pow_add_r by lia; f_equal; unfold r; lia).
    assert (E2 : (k - 1) ^ k = x * (k - 1) ^ r) by (unfold x; rewrite <- Z.pow_add_r by lia; f_equal; unfold r; lia).
    pose proof (half_power k m ltac:(lia) ltac:(lia)) as Hh.
    assert (E3 : k ^ k = k ^ m * k ^ m) by (rewrite <- Z.pow_add_r by lia; f_equal; lia).
    assert (E4 : (k - 1) ^ k = (k - 1) ^ m * (k - 1) ^ m) by (rewrite <- Z.pow_add_r by lia; f_equal; lia).
    assert (0 < k ^ m) by (apply Z.pow_pos_nonneg; lia). assert (0 <= (k - 1) ^ m) by (apply Z.pow_nonneg; lia).
    assert (H4 : k ^ k <= 4 * (k - 1) ^ k) by (rewrite E3, E4; nia).
    assert (Hrr : 0 <= (k - 1) ^ r <= k ^ r) by (split; [apply Z.pow_nonneg; lia|apply Z.pow_le_mono_l; lia]). assert (0 < k ^ r) by (apply Z.pow_pos_nonneg; lia).
    assert (Hf : d * k ^ r <= 4 * x * k ^ r) by (rewrite <- E1; etransitivity; [exact H4|]; rewrite E2; nia). nia. }
  nia.
Qed.

(** creation succeeds for every capacity up to 2^30 *)
Lemma sizes_for n : 0 < n <= 2 ^ 30 -> exists k E, 0 <= k <= 30 /\ bucket_count_for n = 2 ^ k /\ excess_count_for n = Ret E /\ 0 < E /\ n < 2 ^ k + E /\ 2 ^ k + E <= INT_MAX.
Proof.
  intros Hn. destruct (bucket_count_pow2 n Hn) as (k & Hk & Eb & Hf & Hmin). unfold excess_count_for. rewrite Eb.
  assert (Hp : 0 < 2 ^ k <= 2 ^ 30) by (split; [lia|apply Z.pow_le_mono_r; lia]).
  destruct (collisions_bounds (2 ^ k) n ltac:(lia) ltac:(lia)) as (c & Ec & Hc & Hc2). rewrite Ec. cbn [obind]. exists k, (c + 1).
  split; [lia|]. split; [reflexivity|]. split; [reflexivity|]. split; [lia|]. split; [lia|]. unfold INT_MAX.
  destruct (Z.eq_dec k 30) as [->|Hne].
  - destruct (collisions_three_quarters (2 ^ 30) n ltac:(lia) ltac:(exists (2 ^ 29); reflexivity) ltac:(lia)) as (c' & Ec' & Hc'). rewrite Ec in Ec'. injection Ec' as <-. lia.
  - assert (2 ^ k <= 2 ^ 29) by (apply Z.pow_le_mono_r; lia). lia.
Qed.
