From Verif Require Import Base BitModel BitSpec.

Lemma wrap_small w x : 0 <= x < 2 ^ w -> wrap w x = x.
Proof. intros H. unfold wrap. apply Z.mod_small. lia. Qed.

Lemma pow2_pos k : 0 <= k -> 0 < 2 ^ k.
Proof. intros. apply Z.pow_pos_nonneg; lia. Qed.

Lemma pow2_mono a b : 0 <= a <= b -> 2 ^ a <= 2 ^ b.
Proof. intros. apply Z.pow_le_mono_r; lia. Qed.

Lemma pow2_mono_lt a b : 0 <= a < b -> 2 ^ a < 2 ^ b.
Proof. intros. apply Z.pow_lt_mono_r; lia. Qed.

Lemma land_pred_pow2 k x : 0 <= k -> Z.land x (2 ^ k - 1) = x mod 2 ^ k.
Proof. intros Hk. rewrite <- Z.land_ones by lia. f_equal. rewrite Z.ones_equiv. lia. Qed.

Lemma log2_lt_width w x : 0 < x < 2 ^ w -> Z.log2 x < w.
Proof. intros H. apply Z.log2_lt_pow2; lia. Qed.

Lemma testbit_high x k : 0 <= x < 2 ^ k -> forall j, k <= j -> Z.testbit x j = false.
Proof.
  intros Hx j Hj.
  destruct (Z.eq_dec x 0) as [->|Hn]; [apply Z.bits_0|].
  apply Z.bits_above_log2; [lia|].
  pose proof (log2_lt_width k x). lia.
Qed.

Lemma bits_lt_pow2 x k : 0 <= k -> 0 <= x -> (forall j, k <= j -> Z.testbit x j = false) -> x < 2 ^ k.
Proof.
  intros Hk Hx H.
  destruct (Z.lt_ge_cases x (2 ^ k)) as [?|Hge]; [lia|exfalso].
  pose proof (pow2_pos k Hk).
  assert (Hl : k <= Z.log2 x) by (apply Z.log2_le_pow2; lia).
  specialize (H _ Hl). rewrite Z.bit_log2 in H by lia. discriminate.
Qed.

Lemma has_single_bit_spec w x : 0 < w -> 0 <= x < 2 ^ w ->
  has_single_bit w x = true <-> is_pow2 w x.
Proof.
  intros Hw Hx. unfold has_single_bit, is_pow2.
  rewrite andb_true_iff, negb_true_iff, Z.eqb_neq, Z.eqb_eq.
  split.
  - intros [Hn Hl].
    rewrite wrap_small in Hl by lia.
    exists (Z.log2 x).
    pose proof (Z.log2_nonneg x). pose proof (log2_lt_width w x).
    pose proof (Z.log2_spec x). replace (Z.succ (Z.log2 x)) with (Z.log2 x + 1) in * by lia.
    split; [lia|].
    destruct (Z.eq_dec x (2 ^ Z.log2 x)) as [?|Hne]; [assumption|exfalso].
    assert (Hb : Z.testbit (Z.land x (x - 1)) (Z.log2 x) = true).
    { rewrite Z.land_spec, Z.bit_log2 by lia. simpl.
      replace (Z.log2 x) with (Z.log2 (x - 1)).
      - apply Z.bit_log2. pose proof (pow2_pos (Z.log2 x)). lia.
      - apply Z.log2_unique; [lia|].
        replace (Z.succ (Z.log2 x)) with (Z.log2 x + 1) by lia. lia. }
    rewrite Hl, Z.bits_0 in Hb. discriminate.
  - intros (k & Hk & ->).
    pose proof (pow2_pos k).
    split; [lia|]. rewrite wrap_small by lia.
    rewrite land_pred_pow2 by lia. apply Z.mod_same. lia.
Qed.

(** the smearing loop *)
Lemma smear_steps n x m : 0 < x -> m = Z.log2 x -> 
  let y := fold_left (fun r i => Z.lor r (Z.shiftr r i)) (seqZ 0 (Z.of_nat n)) x in
  0 <= y < 2 ^ (m + 1) /\ Z.testbit y m = true /\
  forall j, 0 <= j -> m - (Z.of_nat n - 1) <= j <= m -> Z.testbit y j = true.
Proof.
  intros Hx ->. pose proof (Z.log2_nonneg x) as Hm.
  induction n as [|n IH].
  - simpl. pose proof (Z.log2_spec x Hx). replace (Z.succ (Z.log2 x)) with (Z.log2 x + 1) in * by lia.
    split; [lia|]. split; [apply Z.bit_log2; lia|]. intros j Hj Hr. lia.
  - rewrite seqZ_S.
    rewrite fold_left_app. cbn zeta in *.
    set (y := fold_left (fun r i => Z.lor r (Z.shiftr r i)) (seqZ 0 (Z.of_nat n)) x) in *.
    destruct IH as (Hy & Htop & Hb). simpl fold_left. rewrite Z.add_0_l.
    set (i := Z.of_nat n) in *.
    assert (Hs : 0 <= Z.shiftr y i < 2 ^ (Z.log2 x + 1)).
    { rewrite Z.shiftr_div_pow2 by lia. pose proof (pow2_pos i).
      split; [apply Z.div_pos; lia|].
      apply Z.le_lt_trans with y; [|lia]. apply Z.div_le_upper_bound; nia. }
    assert (Hnn : 0 <= Z.lor y (Z.shiftr y i)) by (apply Z.lor_nonneg; lia).
    split; [split; [lia|]|split].
    + apply bits_lt_pow2; [lia|lia|]. intros j Hj.
      rewrite Z.lor_spec.
      rewrite (testbit_high y (Z.log2 x + 1)) by lia.
      rewrite (testbit_high (Z.shiftr y i) (Z.log2 x + 1)) by lia. reflexivity.
    + rewrite Z.lor_spec, Htop. reflexivity.
    + intros j Hj Hr. rewrite Z.lor_spec.
      destruct (Z.eq_dec j (Z.log2 x - i)) as [->|Hne].
      * rewrite Z.shiftr_spec by lia. replace (Z.log2 x - i + i) with (Z.log2 x) by lia.
        rewrite Htop. apply orb_true_r.
      * rewrite Hb by lia. reflexivity.
Qed.

Lemma smear_zero w : smear w 0 = 0.
Proof.
  unfold smear. induction (seqZ 0 w) as [|i l IH]; [reflexivity|].
  cbn [fold_left]. rewrite Z.shiftr_0_l. exact IH.
Qed.

Lemma smear_spec w x : 0 < w -> 0 < x < 2 ^ w -> smear w x = 2 ^ (Z.log2 x + 1) - 1.
Proof.
  intros Hw Hx.
  pose proof (smear_steps (Z.to_nat w) x _ (proj1 Hx) eq_refl) as H.
  cbn zeta in H. rewrite Z2Nat.id in H by lia. fold (smear w x) in H.
  destruct H as (Hr & _ & Hb).
  pose proof (Z.log2_nonneg x). pose proof (log2_lt_width w x Hx).
  replace (2 ^ (Z.log2 x + 1) - 1) with (Z.ones (Z.log2 x + 1)) by (rewrite Z.ones_equiv; lia).
  apply Z.bits_inj_iff'. intros j Hj.
  destruct (Z.lt_ge_cases j (Z.log2 x + 1)) as [Hlt|Hge].
  - rewrite Z.ones_spec_low by lia. apply Hb; lia.
  - rewrite Z.ones_spec_high by lia. eapply testbit_high; [exact Hr|lia].
Qed.

Lemma least_pow2_exists x : 0 <= x -> exists k, least_pow2_above x k.
Proof.
  intros Hx. destruct (Z.le_gt_cases x 1) as [H1|H1].
  - exists 0. split; [lia|]. split; [simpl; lia|]. intros; lia.
  - exists (Z.log2 (x - 1) + 1).
    pose proof (Z.log2_nonneg (x - 1)). pose proof (Z.log2_spec (x - 1)).
    replace (Z.succ (Z.log2 (x - 1))) with (Z.log2 (x - 1) + 1) in * by lia.
    split; [lia|]. split; [lia|]. intros j Hj Hle.
    destruct (Z.le_gt_cases (Z.log2 (x - 1) + 1) j) as [?|Hgt]; [assumption|exfalso].
    pose proof (pow2_mono j (Z.log2 (x - 1))). lia.
Qed.

Lemma least_pow2_unique x k k' : least_pow2_above x k -> least_pow2_above x k' -> k = k'.
Proof. intros (? & ? & H1) (? & ? & H2). specialize (H1 k'). specialize (H2 k). lia. Qed.

Lemma bit_ceil_eq w x : 0 < w -> 0 <= x < 2 ^ w ->
  bit_ceil w x = wrap w (if x <=? 1 then 1 else 2 ^ (Z.log2 (x - 1) + 1)).
Proof.
  intros Hw Hx. unfold bit_ceil. pose proof (pow2_mono 1 w).
  destruct (Z.leb_spec x 1) as [H1|H1].
  - replace (wrap w (wrap w (x + (if x =? 0 then 1 else 0)) - 1)) with 0.
    + rewrite smear_zero. reflexivity.
    + destruct (Z.eqb_spec x 0); rewrite !wrap_small; rewrite ?wrap_small; lia.
  - destruct (Z.eqb_spec x 0); [lia|].
    rewrite (wrap_small w (x + 0)) by lia.
    replace (x + 0 - 1) with (x - 1) by lia.
    rewrite (wrap_small w (x - 1)) by lia.
    rewrite smear_spec by lia. f_equal. lia.
Qed.

Lemma bit_ceil_spec w x k : 0 < w -> 0 <= x < 2 ^ w -> least_pow2_above x k ->
  bit_ceil w x = if k <? w then 2 ^ k else 0.
Proof.
  intros Hw Hx Hk. rewrite bit_ceil_eq by assumption.
  assert (Hk' : 0 <= k /\ (if x <=? 1 then 1 else 2 ^ (Z.log2 (x - 1) + 1)) = 2 ^ k).
  { split; [destruct Hk; lia|].
    destruct (Z.leb_spec x 1).
    - replace k with 0; [reflexivity|]. eapply least_pow2_unique; [|exact Hk].
      split; [lia|]. split; [simpl; lia|]. intros; lia.
    - f_equal. eapply least_pow2_unique; [|exact Hk].
      pose proof (Z.log2_nonneg (x - 1)). pose proof (Z.log2_spec (x - 1)).
      replace (Z.succ (Z.log2 (x - 1))) with (Z.log2 (x - 1) + 1) in * by lia.
      split; [lia|]. split; [lia|]. intros j Hj Hle.
      destruct (Z.le_gt_cases (Z.log2 (x - 1) + 1) j) as [?|Hgt]; [assumption|exfalso].
      pose proof (pow2_mono j (Z.log2 (x - 1))). lia. }
  destruct Hk' as [Hk0 ->].
  destruct (Z.ltb_spec k w) as [Hlt|Hge].
  - apply wrap_small. pose proof (pow2_pos k Hk0). pose proof (pow2_mono_lt k w). lia.
  - assert (k = w).
    { destruct Hk as (_ & _ & Hmin). specialize (Hmin w). lia. }
    subst. unfold wrap. apply Z.mod_same. pose proof (pow2_pos w). lia.
Qed.

Lemma bit_floor_spec w x : 0 < w -> 0 < x < 2 ^ w ->
  exists k, 0 <= k < w /\ bit_floor w x = 2 ^ k /\ 2 ^ k <= x /\ forall j, 0 <= j -> 2 ^ j <= x -> j <= k.
Proof.
  intros Hw Hx. exists (Z.log2 x).
  pose proof (Z.log2_nonneg x). pose proof (log2_lt_width w x Hx).
  pose proof (Z.log2_spec x). replace (Z.succ (Z.log2 x)) with (Z.log2 x + 1) in * by lia.
  split; [lia|]. split; [|split; [lia|]].
  - unfold bit_floor. destruct (Z.eqb_spec x 0); [lia|].
    rewrite smear_spec by lia.
    replace (2 ^ (Z.log2 x + 1) - 1) with (Z.ones (Z.log2 x + 1)) by (rewrite Z.ones_equiv; lia).
    apply Z.bits_inj_iff'. intros j Hj.
    rewrite Z.land_spec. unfold wrap.
    destruct (Z.lt_ge_cases j (Z.log2 x + 1)) as [Hlt|Hge].
    + rewrite Z.ones_spec_low by lia. rewrite andb_true_l.
      rewrite Z.mod_pow2_bits_low by lia. rewrite Z.lnot_spec by lia.
      rewrite Z.shiftr_spec by lia.
      rewrite Z.pow2_bits_eqb by lia.
      destruct (Z.eqb_spec (Z.log2 x) j) as [<-|Hne].
      * rewrite Z.ones_spec_high by lia. reflexivity.
      * rewrite Z.ones_spec_low by lia. reflexivity.
    + rewrite Z.ones_spec_high by lia. rewrite andb_false_l.
      rewrite Z.pow2_bits_eqb by lia. symmetry. apply Z.eqb_neq. lia.
  - intros j Hj Hle. apply Z.log2_le_pow2; lia.
Qed.

Lemma bit_mod_spec w x d : 0 < w -> 0 <= x < 2 ^ w -> 0 <= d < 2 ^ w ->
  (is_pow2 w d -> bit_mod w x d = Ret (x mod d)) /\ (~ is_pow2 w d -> bit_mod w x d = UB).
Proof.
  intros Hw Hx Hd. unfold bit_mod. split; intros H.
  - rewrite (proj2 (has_single_bit_spec w d Hw Hd) H). f_equal.
    destruct H as (k & Hk & ->). pose proof (pow2_pos k).
    rewrite wrap_small by lia. apply land_pred_pow2. lia.
  - destruct (has_single_bit w d) eqn:E; [|reflexivity].
    exfalso. apply H, has_single_bit_spec; assumption.
Qed.

Lemma bit_width_loop_spec w fuel : forall x r, 0 < w -> 0 < x -> 0 <= r -> Z.log2 x < Z.of_nat fuel ->
  r + Z.log2 x < 2 ^ w ->
  bit_width_loop w fuel x r = Ret (r + Z.log2 x).
Proof.
  induction fuel as [|fuel IH]; intros x r Hw Hx Hr Hf Hb.
  - pose proof (Z.log2_nonneg x). lia.
  - cbn [bit_width_loop]. cbn zeta.
    destruct (Z.eqb_spec (Z.shiftr x 1) 0) as [E|E].
    + apply Z.shiftr_eq_0_iff in E. destruct E as [?|[_ E]]; [lia|].
      pose proof (Z.log2_nonneg x). replace (Z.log2 x) with 0 by lia. f_equal. lia.
    + assert (Hl : Z.log2 (Z.shiftr x 1) = Z.log2 x - 1).
      { assert (0 < Z.log2 x).
        { destruct (Z.lt_ge_cases 0 (Z.log2 x)); [assumption|].
          exfalso. apply E. apply Z.shiftr_eq_0_iff. right. lia. }
        rewrite Z.log2_shiftr by lia. lia. }
      assert (0 <= Z.shiftr x 1) by (apply Z.shiftr_nonneg; lia).
      pose proof (Z.log2_nonneg (Z.shiftr x 1)).
      rewrite wrap_small by lia.
      rewrite IH; try lia. f_equal. lia.
Qed.

Lemma bit_width_spec w fuel x : 0 < w -> 0 <= x < 2 ^ w -> w <= Z.of_nat fuel ->
  exists r, bit_width w fuel x = Ret r /\ 0 <= r <= w /\ x < 2 ^ r /\ forall j, 0 <= j -> x < 2 ^ j -> r <= j.
Proof.
  intros Hw Hx Hf. unfold bit_width. destruct (Z.eqb_spec x 0) as [->|Hn].
  - exists 0. split; [reflexivity|]. split; [lia|]. split; [simpl; lia|]. intros; lia.
  - pose proof (Z.log2_nonneg x). pose proof (log2_lt_width w x).
    pose proof (Z.log2_spec x). replace (Z.succ (Z.log2 x)) with (Z.log2 x + 1) in * by lia.
    exists (1 + Z.log2 x). split.
    + apply bit_width_loop_spec; try lia.
      pose proof (Z.pow_gt_lin_r 2 w). lia.
    + split; [lia|]. split; [replace (1 + Z.log2 x) with (Z.log2 x + 1) by lia; lia|].
      intros j Hj Hlt.
      destruct (Z.le_gt_cases (1 + Z.log2 x) j) as [?|Hgt]; [assumption|exfalso].
      pose proof (pow2_mono j (Z.log2 x)). lia.
Qed.

(** popcount *)
Fixpoint cnt (n : nat) (x : Z) : Z :=
  match n with O => 0 | S n => Z.b2z (Z.odd x) + cnt n (Z.div2 x) end.

Lemma cnt_ones n : forall x, ones_count (Z.of_nat n) x = cnt n x.
Proof.
  unfold ones_count. induction n as [|n IH]; intros x; [reflexivity|].
  rewrite Nat2Z.inj_succ. rewrite seqZ_cons by lia.
  rewrite filter_cons. cbn [cnt]. rewrite <- IH.
  replace (Z.pred (Z.succ (Z.of_nat n))) with (Z.of_nat n) by lia.
  assert (E : forall l, length (filter (fun i => Z.testbit x i = true) (Z.succ <$> l))
               = length (filter (fun i => Z.testbit x (Z.succ i) = true) l)).
  { induction l as [|a l IHl]; [reflexivity|]. rewrite fmap_cons, !filter_cons.
    destruct (decide (Z.testbit x (Z.succ a) = true)); simpl; rewrite IHl; reflexivity. }
  assert (E2 : seqZ (Z.succ 0) (Z.of_nat n) = Z.succ <$> seqZ 0 (Z.of_nat n)).
  { symmetry. rewrite <- (fmap_add_seqZ 1 0). apply list_fmap_ext. intros ? ? _. lia. }
  rewrite E2.
  assert (E3 : length (filter (fun i => Z.testbit x (Z.succ i) = true) (seqZ 0 (Z.of_nat n)))
             = length (filter (fun i => Z.testbit (Z.div2 x) i = true) (seqZ 0 (Z.of_nat n)))).
  { f_equal. apply list_filter_ext_in. intros i Hi. apply elem_of_seqZ in Hi.
    rewrite Z.div2_spec, Z.shiftr_spec by lia. replace (i + 1) with (Z.succ i) by lia. tauto. }
  rewrite Z.bit0_odd. destruct (Z.odd x) eqn:Eo.
  - rewrite decide_True by reflexivity. cbn [length]. rewrite E, E3. cbn [Z.b2z]. lia.
  - rewrite decide_False by discriminate. rewrite E, E3. cbn [Z.b2z]. lia.
Qed.

Lemma land_double a b (p q : bool) : Z.land (2 * a + Z.b2z p) (2 * b + Z.b2z q) = 2 * Z.land a b + Z.b2z (p && q).
Proof.
  apply Z.bits_inj_iff'. intros j Hj. rewrite Z.land_spec.
  destruct (Z.eq_dec j 0) as [->|Hn].
  - rewrite !Z.testbit_0_r. reflexivity.
  - replace j with (Z.succ (j - 1)) by lia. rewrite !Z.testbit_succ_r by lia. rewrite Z.land_spec. reflexivity.
Qed.

Lemma cnt_zero n : cnt n 0 = 0.
Proof. induction n; [reflexivity|]. cbn [cnt]. assumption. Qed.

Lemma cnt_double n a p : cnt (S n) (2 * a + Z.b2z p) = Z.b2z p + cnt n a.
Proof.
  cbn [cnt].
  assert (E : Z.div2 (2 * a + Z.b2z p) = a).
  { rewrite Z.div2_div. symmetry. apply (Z.div_unique _ _ a (Z.b2z p)); destruct p; cbn [Z.b2z]; lia. }
  rewrite E, Z.odd_add, Z.odd_mul. change (Z.odd 2) with false.
  destruct p; reflexivity.
Qed.

Lemma cnt_clear n : forall x, 0 < x < 2 ^ Z.of_nat n -> cnt n (Z.land x (x - 1)) = cnt n x - 1.
Proof.
  induction n as [|n IH]; intros x Hx.
  - change (2 ^ Z.of_nat 0) with 1 in Hx. lia.
  - rewrite Nat2Z.inj_succ, Z.pow_succ_r in Hx by lia.
    pose proof (Z.div2_odd x) as Ex. set (u := Z.div2 x) in *. destruct (Z.odd x).
    + replace (x - 1) with (2 * u + Z.b2z false) by (cbn [Z.b2z]; lia). rewrite Ex.
      rewrite land_double, !cnt_double. rewrite Z.land_diag. cbn [andb Z.b2z]. lia.
    + replace (x - 1) with (2 * (u - 1) + Z.b2z true) by (cbn [Z.b2z] in *; lia). rewrite Ex.
      rewrite land_double, !cnt_double. cbn [andb Z.b2z] in *. rewrite IH by lia. lia.
Qed.

Lemma cnt_nonneg n : forall x, 0 <= cnt n x <= Z.of_nat n.
Proof. induction n as [|n IH]; intros x; [cbn [cnt]; lia|]. cbn [cnt]. specialize (IH (Z.div2 x)). destruct (Z.odd x); cbn [Z.b2z]; lia. Qed.

Lemma cnt_pos n : forall x, 0 < x < 2 ^ Z.of_nat n -> 0 < cnt n x.
Proof.
  intros x Hx. pose proof (cnt_clear n x Hx). pose proof (cnt_nonneg n (Z.land x (x - 1))). lia.
Qed.

Lemma popcount_loop_spec n fuel : forall x r, 0 < Z.of_nat n -> 0 <= x < 2 ^ Z.of_nat n -> cnt n x < Z.of_nat fuel ->
  popcount_loop (Z.of_nat n) fuel x r = Ret (r + cnt n x).
Proof.
  induction fuel as [|fuel IH]; intros x r Hw Hx Hf.
  - pose proof (cnt_nonneg n x). lia.
  - cbn [popcount_loop]. destruct (Z.eqb_spec x 0) as [->|Hn].
    + rewrite cnt_zero. f_equal. lia.
    + rewrite wrap_small by lia. pose proof (cnt_clear n x).
      rewrite IH; try lia.
      * f_equal. lia.
      * split; [apply Z.land_nonneg; lia|].
        apply bits_lt_pow2; [lia|apply Z.land_nonneg; lia|]. intros j Hj. rewrite Z.land_spec.
        rewrite (testbit_high x (Z.of_nat n)) by lia. reflexivity.
Qed.

Lemma popcount_spec w fuel x : 0 < w -> 0 <= x < 2 ^ w -> w < Z.of_nat fuel ->
  popcount w fuel x = Ret (ones_count w x).
Proof.
  intros Hw Hx Hf. unfold popcount. rewrite <- (Z2Nat.id w) in * by lia.
  rewrite popcount_loop_spec; try lia.
  - rewrite cnt_ones. reflexivity.
  - pose proof (cnt_nonneg (Z.to_nat w) x). lia.
Qed.

(** bit_cast *)
Lemma bit_cast_prefix size (l : list Z) k : length l = size -> (k <= size)%nat ->
  fold_left (fun result i => <[i := l !! i]> result) (seq 0 k) (replicate size None)
  = (Some <$> take k l) ++ replicate (size - k) None.
Proof.
  intros Hl. induction k as [|k IH]; intros Hk.
  - simpl. rewrite Nat.sub_0_r. reflexivity.
  - rewrite seq_S, fold_left_app, IH by lia. cbn [fold_left]. rewrite Nat.add_0_l.
    destruct (lookup_lt_is_Some_2 l k) as [a Ha]; [lia|].
    rewrite Ha. rewrite insert_app_r_alt by (rewrite fmap_length, take_length; lia).
    rewrite fmap_length, take_length. replace (k - k `min` length l)%nat with 0%nat by lia.
    replace (size - k)%nat with (S (size - S k)) by lia. cbn [replicate insert list_insert].
    rewrite (take_S_r _ _ _ Ha), fmap_app, <- app_assoc. reflexivity.
Qed.

Lemma bit_cast_spec (l : list Z) : bit_cast_bytes (length l) l = Some <$> l.
Proof.
  unfold bit_cast_bytes. rewrite bit_cast_prefix by lia.
  rewrite Nat.sub_diag, app_nil_r, firstn_all. reflexivity.
Qed.

Lemma bit_cast_val {From To} (rep : From -> list Z) (val : list Z -> To) n x : length (rep x) = n ->
  bit_cast n rep val x = Ret (val (rep x)).
Proof.
  intros <-. unfold bit_cast. rewrite bit_cast_spec.
  assert (E : mapM id (Some <$> rep x) = Some (rep x)).
  { apply mapM_fmap_Some_inv || (induction (rep x) as [|b l IH]; [reflexivity|]; cbn; cbn in IH; rewrite IH; reflexivity). }
  rewrite E. reflexivity.
Qed.

Lemma bit_cast_roundtrip {From To} (n : nat) (repF : From -> list Z) (valF : list Z -> From)
    (repT : To -> list Z) (valT : list Z -> To) :
  (forall x, length (repF x) = n) -> (forall x, valF (repF x) = x) ->
  (forall bytes, length bytes = n -> repT (valT bytes) = bytes) ->
  (forall x, exists y, bit_cast n repF valT x = Ret y /\ repT y = repF x /\ bit_cast n repT valF y = Ret x) /\
  (forall x x' y, bit_cast n repF valT x = Ret y -> bit_cast n repF valT x' = Ret y -> x = x').
Proof.
  intros HlF HvF HT.
  assert (H1 : forall x, exists y, bit_cast n repF valT x = Ret y /\ repT y = repF x /\ bit_cast n repT valF y = Ret x).
  { intros x. exists (valT (repF x)). rewrite bit_cast_val by auto. split; [reflexivity|].
    rewrite HT by auto. split; [reflexivity|]. rewrite bit_cast_val; rewrite HT by auto; auto. rewrite HvF. reflexivity. }
  split; [exact H1|]. intros x x' y E E'.
  destruct (H1 x) as (y1 & E1 & _ & B1). destruct (H1 x') as (y2 & E2 & _ & B2). congruence.
Qed.
