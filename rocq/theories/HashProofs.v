(** Multiplicative hashing: range, and every bucket of a power-of-two table is hit. *)
From Verif Require Import Base VectorModel VectorProofs BitModel BitProofs UnorderedModel.

Lemma wrap_id w x : 0 <= x < 2 ^ w -> wrap w x = x.
Proof. intros H. unfold wrap. apply Z.mod_small. exact H. Qed.

(** the value when the table has at least two buckets; m = bit_width(bucket_count) - 1 *)
Lemma fib_value bc : 0 < bc <= INT_MAX -> exists m, 0 <= m <= 30 /\ 2 ^ m <= bc < 2 ^ (m + 1) /\
  forall h, fibonacci_hashing h bc = if m =? 0 then Ret 0 else
    let r := to_int32 (Z.shiftr (wrap 64 (fib_multiplier * Z.lxor h (Z.shiftr h (64 - m)))) (64 - m)) in
    if (0 <=? r) && (r <? bc) then Ret r else UB.
Proof.
  intros Hbc. unfold INT_MAX in Hbc.
  assert (E64 : wrap 64 bc = bc) by (apply wrap_id; lia).
  destruct (bit_width_spec 64 64 bc ltac:(lia) ltac:(lia) ltac:(lia)) as (r & Er & Hr & H1 & H2).
  assert (Hr1 : 1 <= r). { destruct (Z.le_gt_cases 1 r) as [|Hc]; [assumption|]. assert (r = 0) by lia. subst. cbn in H1. lia. }
  assert (Hlow : 2 ^ (r - 1) <= bc). { destruct (Z.le_gt_cases (2 ^ (r - 1)) bc) as [|Hc]; [assumption|]. specialize (H2 (r - 1) ltac:(lia) Hc). lia. }
  exists (r - 1). replace (r - 1 + 1) with r by lia. split; [|split; [lia|]].
  - split; [lia|]. destruct (Z.le_gt_cases (r - 1) 30) as [|Hc]; [assumption|]. assert (2 ^ 31 <= 2 ^ (r - 1)) by (apply Z.pow_le_mono_r; lia). lia.
  - intros h. unfold fibonacci_hashing. rewrite E64, Er. cbn [obind]. destruct (Z.eqb_spec (r - 1) 0) as [E|E].
    + rewrite E. reflexivity.
    + rewrite (proj2 (Z.leb_gt _ _)) by lia. reflexivity.
Qed.

Lemma shifted_range x m : 0 <= m <= 64 -> 0 <= x < 2 ^ 64 -> 0 <= Z.shiftr x (64 - m) < 2 ^ m.
Proof.
  intros Hm Hx. rewrite Z.shiftr_div_pow2 by lia. split; [apply Z.div_pos; lia|].
  apply Z.div_lt_upper_bound; [lia|]. rewrite <- Z.pow_add_r by lia. replace (64 - m + m) with 64 by lia. lia.
Qed.

Lemma wrap_range w x : 0 <= w -> 0 <= wrap w x < 2 ^ w.
Proof. intros H. unfold wrap. apply Z.mod_pos_bound. lia. Qed.

Lemma fib_range h bc : 0 < bc <= INT_MAX -> exists r, fibonacci_hashing h bc = Ret r /\ 0 <= r < bc.
Proof.
  intros Hbc. destruct (fib_value bc Hbc) as (m & Hm & Hp & E). rewrite E. destruct (Z.eqb_spec m 0) as [->|Hne]; [exists 0; split; [reflexivity|lia]|].
  pose proof (shifted_range (wrap 64 (fib_multiplier * Z.lxor h (Z.shiftr h (64 - m)))) m ltac:(lia) (wrap_range 64 _ ltac:(lia))) as Hs.
  assert (2 ^ m <= 2 ^ 30) by (apply Z.pow_le_mono_r; lia).
  cbv zeta. rewrite to_int32_id by (unfold INT_MAX; lia).
  eexists. rewrite (proj2 (Z.leb_le _ _)) by lia. rewrite (proj2 (Z.ltb_lt _ _)) by lia. split; [reflexivity|lia].
Qed.

(** inverse of the multiplier modulo 2^64 *)
Definition fib_inverse : Z := 17428512612931826493.
Lemma fib_inverse_ok : (fib_multiplier * fib_inverse) mod 2 ^ 64 = 1.
Proof. vm_compute. reflexivity. Qed.

Lemma xorshift_inverse y d : 32 <= d <= 64 -> 0 <= y < 2 ^ 64 ->
  let h := Z.lxor y (Z.shiftr y d) in 0 <= h < 2 ^ 64 /\ Z.lxor h (Z.shiftr h d) = y.
Proof.
  intros Hd Hy h. assert (Hz : Z.shiftr (Z.shiftr y d) d = 0).
  { rewrite Z.shiftr_shiftr by lia. apply Z.shiftr_eq_0; [lia|]. destruct (Z.eq_dec y 0) as [->|]; [cbn; lia|]. apply Z.log2_lt_pow2; [lia|].
    assert (2 ^ 64 <= 2 ^ (d + d)) by (apply Z.pow_le_mono_r; lia). lia. }
  split.
  - unfold h. assert (0 <= Z.shiftr y d < 2 ^ 64). { rewrite Z.shiftr_div_pow2 by lia. split; [apply Z.div_pos; lia|]. apply Z.div_lt_upper_bound; [lia|]. nia. }
    assert (Hn : 0 <= Z.lxor y (Z.shiftr y d)) by (apply Z.lxor_nonneg; lia).
    split; [exact Hn|]. destruct (Z.eq_dec (Z.lxor y (Z.shiftr y d)) 0) as [->|Hne]; [lia|].
    apply Z.log2_lt_pow2; [lia|]. eapply Z.le_lt_trans; [apply Z.log2_lxor; lia|].
    apply Z.max_lub_lt.
    + destruct (Z.eq_dec y 0) as [->|]; [cbn; lia|]. apply Z.log2_lt_pow2; lia.
    + destruct (Z.eq_dec (Z.shiftr y d) 0) as [->|]; [cbn; lia|]. apply Z.log2_lt_pow2; lia.
  - unfold h. rewrite Z.shiftr_lxor, Hz, Z.lxor_0_r, Z.lxor_assoc, Z.lxor_nilpotent, Z.lxor_0_r. reflexivity.
Qed.

Lemma fib_onto bc m b : bc = 2 ^ m -> 0 <= m <= 30 -> 0 <= b < bc -> exists h, 0 <= h < 2 ^ 64 /\ fibonacci_hashing h bc = Ret b.
Proof.
  intros Ebc Hm Hb. assert (2 ^ m <= 2 ^ 30) by (apply Z.pow_le_mono_r; lia). assert (0 < 2 ^ m) by lia.
  destruct (fib_value bc ltac:(unfold INT_MAX; lia)) as (m' & Hm' & Hp & E).
  assert (m' = m). { subst bc. destruct Hp as [P1 P2]. apply Z.pow_le_mono_r_iff in P1; [|lia|lia]. apply Z.pow_lt_mono_r_iff in P2; [|lia|lia]. lia. }
  subst m'. destruct (Z.eqb_spec m 0) as [->|Hne].
  { exists 0. split; [lia|]. rewrite E. cbn in Ebc. f_equal. lia. }
  set (d := 64 - m) in *. set (prod := b * 2 ^ d).
  assert (Hprod : 0 <= prod < 2 ^ 64). { unfold prod. split; [apply Z.mul_nonneg_nonneg; lia|]. replace (2 ^ 64) with (2 ^ m * 2 ^ d) by (unfold d; rewrite <- Z.pow_add_r by lia; f_equal; lia). apply Z.mul_lt_mono_pos_r; lia. }
  set (y := (fib_inverse * prod) mod 2 ^ 64).
  assert (Hy : 0 <= y < 2 ^ 64) by (apply Z.mod_pos_bound; lia).
  destruct (xorshift_inverse y d ltac:(unfold d; lia) Hy) as [Hh Hx]. cbv zeta in *.
  exists (Z.lxor y (Z.shiftr y d)). split; [exact Hh|]. rewrite E. cbv zeta. rewrite Hx.
  assert (Ew : wrap 64 (fib_multiplier * y) = prod).
  { unfold wrap, y. rewrite Zmult_mod_idemp_r, Z.mul_assoc, Zmult_mod, fib_inverse_ok, Z.mul_1_l, Zmod_mod. apply Z.mod_small. exact Hprod. }
  rewrite Ew. assert (Es : Z.shiftr prod d = b). { unfold prod. rewrite Z.shiftr_div_pow2 by (unfold d; lia). apply Z.div_mul. apply Z.pow_nonzero; unfold d; lia. }
  rewrite Es, to_int32_id by (unfold INT_MAX; lia). rewrite (proj2 (Z.leb_le _ _)) by lia. rewrite (proj2 (Z.ltb_lt _ _)) by lia. reflexivity.
Qed.
