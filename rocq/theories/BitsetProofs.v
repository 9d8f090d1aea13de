From Verif Require Import Base Conc BitModel BitSpec BitProofs AlgoModel AlgoProofs BitsetModel BitsetSpec.

Section proofs.
  Context (bpb : Z).
  Hypothesis Hpow : is_pow2 64 bpb.
  Hypothesis Hsmall : bpb <= 64.

  Local Lemma bpb_pos : 0 < bpb.
  Proof. destruct Hpow as (k & Hk & ->). apply pow2_pos. lia. Qed.

  (** bit n of a block list *)
  Definition bit_at (bl : list Z) (n : Z) : bool :=
    match bl !! Z.to_nat (n / bpb) with Some x => Z.testbit x (n mod bpb) | None => false end.

  Definition bits_of (b : bitset) : list bool := bit_at (bs_blocks b) <$> seqZ 0 (bs_size b).

  Definition wf (b : bitset) : Prop :=
    0 <= bs_size b < 2 ^ 63 /\
    (forall x, x ∈ bs_blocks b -> 0 <= x < 2 ^ bpb) /\
    (exists q, div_up (bs_size b) bpb = Ret q /\ Z.of_nat (length (bs_blocks b)) = q).

  Lemma bits_length b : 0 <= bs_size b -> Z.of_nat (length (bits_of b)) = bs_size b.
  Proof. intros H. unfold bits_of. rewrite fmap_length, seqZ_length. lia. Qed.

  Lemma bits_lookup b n : 0 <= n < bs_size b -> bits_of b !! Z.to_nat n = Some (bit_at (bs_blocks b) n).
  Proof.
    intros H. unfold bits_of. rewrite list_lookup_fmap, lookup_seqZ_lt by lia. cbn. f_equal. f_equal. lia.
  Qed.

  Lemma bits_ext (b b' : bitset) : bs_size b' = bs_size b ->
    (forall n, 0 <= n < bs_size b -> bit_at (bs_blocks b') n = bit_at (bs_blocks b) n) -> bits_of b' = bits_of b.
  Proof.
    intros Hs H. unfold bits_of. rewrite Hs. apply list_fmap_ext. intros i x Hx.
    apply lookup_seqZ in Hx as [-> Hx]. apply H. lia.
  Qed.

  Lemma div_up_bound s q : 0 <= s -> div_up s bpb = Ret q -> 0 <= q /\ s <= q * bpb /\ (q - 1) * bpb < s.
  Proof.
    intros Hs Hq. pose proof bpb_pos.
    destruct (proj1 (div_up_spec s bpb)) as (q' & E & H1 & H2 & H3); [lia|lia|].
    rewrite E in Hq. injection Hq as <-. split; [lia|]. split; [lia|].
    destruct (Z.lt_ge_cases ((q' - 1) * bpb) s) as [?|Hge]; [assumption|]. specialize (H3 (q' - 1)). lia.
  Qed.

  Lemma wf_block b n : wf b -> 0 <= n < bs_size b ->
    exists x, bs_blocks b !! Z.to_nat (n / bpb) = Some x /\ 0 <= x < 2 ^ bpb.
  Proof.
    intros (Hs & Hx & q & Hq & Hl) Hn. pose proof bpb_pos.
    apply div_up_bound in Hq; [|lia]. destruct Hq as (H1 & H2 & H3).
    assert (n / bpb < q) by (apply Z.div_lt_upper_bound; lia).
    assert (0 <= n / bpb) by (apply Z.div_pos; lia).
    destruct (lookup_lt_is_Some_2 (bs_blocks b) (Z.to_nat (n / bpb))) as [x E]; [lia|].
    exists x. split; [exact E|]. apply Hx. eapply elem_of_list_lookup_2. exact E.
  Qed.

  Lemma pow2_63_64 x : 0 <= x < 2 ^ 63 -> 0 <= x < 2 ^ 64.
  Proof. lia. Qed.

  Lemma locate_ok b n : wf b -> 0 <= n < bs_size b -> locate bpb b n = Ret (Z.to_nat (n / bpb), n mod bpb).
  Proof.
    intros Hw Hn. destruct Hw as (Hs & _). pose proof bpb_pos.
    unfold locate. replace ((0 <=? n) && (n <? bs_size b)) with true by lia.
    destruct (bit_mod_spec 64 n bpb) as [Hm _]; [lia|lia| |].
    { destruct Hpow as (k & Hk & E). pose proof (pow2_mono_lt k 64). rewrite E in *. lia. }
    rewrite Hm by exact Hpow. cbn [obind].
    pose proof (Z.mod_pos_bound n bpb bpb_pos).
    replace ((0 <=? n mod bpb) && (n mod bpb <? bpb)) with true by lia.
    rewrite Z.quot_div_nonneg by lia. reflexivity.
  Qed.

  Lemma locate_ub b n : ~ (0 <= n < bs_size b) -> locate bpb b n = UB.
  Proof. intros H. unfold locate. replace ((0 <=? n) && (n <? bs_size b)) with false by lia. reflexivity. Qed.

  Lemma set_pattern k : 0 <= k < bpb -> wrap bpb (Z.shiftl 1 k) = 2 ^ k.
  Proof.
    intros Hk. rewrite Z.shiftl_1_l. apply wrap_small. pose proof (pow2_pos k). pose proof (pow2_mono_lt k bpb). lia.
  Qed.

  Lemma get_bit_spec x k : 0 <= k < bpb -> get_bit bpb x k = Z.testbit x k.
  Proof.
    intros Hk. unfold get_bit. rewrite set_pattern by lia.
    destruct (Z.testbit x k) eqn:E.
    - apply negb_true_iff, Z.eqb_neq. intros H.
      assert (Hb : Z.testbit (Z.land x (2 ^ k)) k = true) by (rewrite Z.land_spec, Z.pow2_bits_true, E by lia; reflexivity).
      rewrite H, Z.bits_0 in Hb. discriminate.
    - apply negb_false_iff, Z.eqb_eq. apply Z.bits_inj_iff'. intros j Hj.
      rewrite Z.land_spec, Z.bits_0, Z.pow2_bits_eqb by lia.
      destruct (Z.eqb_spec k j) as [<-|?]; [rewrite E; reflexivity|apply andb_false_r].
  Qed.

  Definition upd_block (old : Z) (k : Z) (v : bool) : Z :=
    if v then Z.lor old (wrap bpb (Z.shiftl 1 k)) else Z.land old (wrap bpb (Z.lnot (wrap bpb (Z.shiftl 1 k)))).

  Lemma upd_block_bit old k v j : 0 <= k < bpb -> 0 <= j < bpb ->
    Z.testbit (upd_block old k v) j = if j =? k then v else Z.testbit old j.
  Proof.
    intros Hk Hj. unfold upd_block. rewrite !set_pattern by lia. destruct v.
    - rewrite Z.lor_spec, Z.pow2_bits_eqb by lia. rewrite (Z.eqb_sym k j).
      destruct (j =? k); [apply orb_true_r|apply orb_false_r].
    - rewrite Z.land_spec. unfold wrap. rewrite Z.mod_pow2_bits_low, Z.lnot_spec by lia.
      rewrite Z.pow2_bits_eqb by lia. rewrite (Z.eqb_sym k j).
      destruct (j =? k); cbn; [apply andb_false_r|apply andb_true_r].
  Qed.

  Lemma range_of_bits x : 0 <= x -> (forall j, bpb <= j -> Z.testbit x j = false) -> 0 <= x < 2 ^ bpb.
  Proof. intros Hx H. pose proof bpb_pos. split; [exact Hx|]. apply bits_lt_pow2; auto with lia. Qed.

  Lemma upd_block_range old k v : 0 <= k < bpb -> 0 <= old < 2 ^ bpb -> 0 <= upd_block old k v < 2 ^ bpb.
  Proof.
    intros Hk Ho. pose proof (pow2_pos k ltac:(lia)). unfold upd_block. rewrite !set_pattern by lia. destruct v.
    - apply range_of_bits; [apply Z.lor_nonneg; lia|]. intros j Hj.
      rewrite Z.lor_spec, (testbit_high old bpb), Z.pow2_bits_false by lia. reflexivity.
    - apply range_of_bits; [apply Z.land_nonneg; lia|]. intros j Hj.
      rewrite Z.land_spec, (testbit_high old bpb) by lia. reflexivity.
  Qed.

  Lemma xor_block_bit old k j : 0 <= k < bpb -> 0 <= j < bpb ->
    Z.testbit (Z.lxor old (wrap bpb (Z.shiftl 1 k))) j = if j =? k then negb (Z.testbit old j) else Z.testbit old j.
  Proof.
    intros Hk Hj. rewrite set_pattern by lia. rewrite Z.lxor_spec, Z.pow2_bits_eqb by lia. rewrite (Z.eqb_sym k j).
    destruct (j =? k); [apply xorb_true_r|apply xorb_false_r].
  Qed.
  Lemma xor_block_range old k : 0 <= k < bpb -> 0 <= old < 2 ^ bpb -> 0 <= Z.lxor old (wrap bpb (Z.shiftl 1 k)) < 2 ^ bpb.
  Proof.
    intros Hk Ho. pose proof (pow2_pos k ltac:(lia)). rewrite set_pattern by lia.
    apply range_of_bits; [apply Z.lxor_nonneg; lia|]. intros j Hj.
    rewrite Z.lxor_spec, (testbit_high old bpb), Z.pow2_bits_false by lia. reflexivity.
  Qed.

  (** replacing the block of bit n changes exactly bit n *)
  Lemma set_block_bits b n x new v : wf b -> 0 <= n < bs_size b ->
    bs_blocks b !! Z.to_nat (n / bpb) = Some x ->
    (forall j, 0 <= j < bpb -> Z.testbit new j = if j =? n mod bpb then v else Z.testbit x j) ->
    bits_of (set_block b (Z.to_nat (n / bpb)) new) = <[Z.to_nat n := v]> (bits_of b).
  Proof.
    intros Hw Hn Hx Hnew. pose proof bpb_pos as Hb. pose proof Hw as (Hs & _).
    apply list_eq. intros i.
    destruct (decide (i < Z.to_nat (bs_size b))%nat) as [Hi|Hi].
    - assert (Hi' : 0 <= Z.of_nat i < bs_size b) by lia.
      pose proof (bits_lookup (set_block b (Z.to_nat (n / bpb)) new) (Z.of_nat i)) as H1. cbn [bs_size bs_blocks set_block] in H1.
      rewrite Nat2Z.id in H1. rewrite H1 by lia.
      unfold bit_at.
      destruct (decide (Z.of_nat i = n)) as [E|E].
      + replace i with (Z.to_nat n) by lia.
        rewrite (list_lookup_insert (bits_of b)) by (pose proof (bits_length b); lia).
        replace (Z.of_nat (Z.to_nat n)) with n by lia.
        rewrite list_lookup_insert by (eapply lookup_lt_Some; eassumption).
        rewrite Hnew by (apply Z.mod_pos_bound; lia). rewrite Z.eqb_refl. reflexivity.
      + rewrite (list_lookup_insert_ne (bits_of b)) by lia.
        pose proof (bits_lookup b (Z.of_nat i) Hi') as H2. rewrite Nat2Z.id in H2. rewrite H2. unfold bit_at.
        destruct (decide (Z.of_nat i / bpb = n / bpb)) as [Ed|Ed].
        * rewrite Ed. rewrite list_lookup_insert by (eapply lookup_lt_Some; eassumption). rewrite Hx.
          rewrite Hnew by (apply Z.mod_pos_bound; lia).
          destruct (Z.eqb_spec (Z.of_nat i mod bpb) (n mod bpb)) as [Em|Em]; [|reflexivity].
          exfalso. apply E. rewrite (Z.div_mod (Z.of_nat i) bpb), (Z.div_mod n bpb) by lia. rewrite Ed, Em. reflexivity.
        * rewrite list_lookup_insert_ne; [reflexivity|].
          assert (0 <= Z.of_nat i / bpb) by (apply Z.div_pos; lia). assert (0 <= n / bpb) by (apply Z.div_pos; lia). lia.
    - rewrite !lookup_ge_None_2; [reflexivity| |].
      + rewrite insert_length. pose proof (bits_length b). lia.
      + pose proof (bits_length (set_block b (Z.to_nat (n / bpb)) new)) as HH. cbn [bs_size set_block] in HH. lia.
  Qed.

  Lemma wf_set_block b k x new : wf b -> bs_blocks b !! k = Some x -> 0 <= new < 2 ^ bpb -> wf (set_block b k new).
  Proof.
    intros (Hs & Hx & q & Hq & Hl) Hk Hnew. split; [exact Hs|]. split.
    - intros y Hy. cbn in Hy. apply elem_of_list_lookup in Hy as [i Hi].
      destruct (decide (k = i)) as [->|Hne].
      + rewrite list_lookup_insert in Hi by (eapply lookup_lt_Some; eassumption). injection Hi as <-. exact Hnew.
      + rewrite list_lookup_insert_ne in Hi by exact Hne. apply Hx. eapply elem_of_list_lookup_2; exact Hi.
    - exists q. cbn. rewrite insert_length. auto.
  Qed.

  Lemma idx_bits b n : wf b -> idx (bits_of b) n = if (0 <=? n) && (n <? bs_size b) then Some (Z.to_nat n) else None.
  Proof. intros (Hs & _). unfold idx. rewrite bits_length by lia. reflexivity. Qed.

  (** single-bit operations *)
  Lemma ref_assign_spec b n v : wf b ->
    match spec_update (bits_of b) n (fun _ => v) with
    | Ret (l, r) => exists b' o, ref_assign bpb b n v = Ret (b', o) /\ r = RBool o /\ wf b' /\ bits_of b' = l /\ bs_size b' = bs_size b
    | UB => ref_assign bpb b n v = UB
    | Hang => False
    end.
  Proof.
    intros Hw. unfold spec_update. rewrite idx_bits by exact Hw.
    destruct ((0 <=? n) && (n <? bs_size b)) eqn:E.
    - assert (Hn : 0 <= n < bs_size b) by lia. rewrite bits_lookup by exact Hn.
      destruct (wf_block b n Hw Hn) as (x & Hx & Hr). pose proof (Z.mod_pos_bound n bpb bpb_pos).
      unfold ref_assign. rewrite locate_ok by assumption. cbn [obind]. unfold block. rewrite Hx. cbn [obind].
      fold (upd_block x (n mod bpb) v).
      eexists _, _. split; [reflexivity|]. split; [|split; [|split]].
      + rewrite get_bit_spec by lia. unfold bit_at. rewrite Hx. reflexivity.
      + eapply wf_set_block; eauto. apply upd_block_range; lia.
      + eapply set_block_bits; eauto. intros j Hj. apply upd_block_bit; lia.
      + reflexivity.
    - unfold ref_assign. rewrite locate_ub by lia. reflexivity.
  Qed.

  Lemma ref_flip_spec b n : wf b ->
    match spec_update (bits_of b) n negb with
    | Ret (l, r) => exists b' o, ref_flip bpb b n = Ret (b', o) /\ r = RBool o /\ wf b' /\ bits_of b' = l /\ bs_size b' = bs_size b
    | UB => ref_flip bpb b n = UB
    | Hang => False
    end.
  Proof.
    intros Hw. unfold spec_update. rewrite idx_bits by exact Hw.
    destruct ((0 <=? n) && (n <? bs_size b)) eqn:E.
    - assert (Hn : 0 <= n < bs_size b) by lia. rewrite bits_lookup by exact Hn.
      destruct (wf_block b n Hw Hn) as (x & Hx & Hr). pose proof (Z.mod_pos_bound n bpb bpb_pos).
      unfold ref_flip. rewrite locate_ok by assumption. cbn [obind]. unfold block. rewrite Hx. cbn [obind].
      eexists _, _. split; [reflexivity|]. split; [|split; [|split]].
      + rewrite get_bit_spec by lia. unfold bit_at. rewrite Hx. reflexivity.
      + eapply wf_set_block; eauto. apply xor_block_range; lia.
      + eapply set_block_bits; eauto. intros j Hj. rewrite xor_block_bit by lia.
        unfold bit_at. rewrite Hx. destruct (Z.eqb_spec j (n mod bpb)) as [->|?]; reflexivity.
      + reflexivity.
    - unfold ref_flip. rewrite locate_ub by lia. reflexivity.
  Qed.

  Lemma ref_get_spec b n : wf b ->
    match spec_update (bits_of b) n (fun x => x) with
    | Ret (l, r) => exists o, ref_get bpb b n = Ret o /\ r = RBool o /\ l = bits_of b
    | UB => ref_get bpb b n = UB
    | Hang => False
    end.
  Proof.
    intros Hw. unfold spec_update. rewrite idx_bits by exact Hw.
    destruct ((0 <=? n) && (n <? bs_size b)) eqn:E.
    - assert (Hn : 0 <= n < bs_size b) by lia. pose proof (bits_lookup b n Hn) as HL. rewrite HL.
      destruct (wf_block b n Hw Hn) as (x & Hx & Hr). pose proof (Z.mod_pos_bound n bpb bpb_pos).
      unfold ref_get. rewrite locate_ok by assumption. cbn [obind]. unfold block. rewrite Hx. cbn [obind].
      eexists. split; [reflexivity|]. split.
      + rewrite get_bit_spec by lia. unfold bit_at. rewrite Hx. reflexivity.
      + apply list_insert_id. exact HL.
    - unfold ref_get. rewrite locate_ub by lia. reflexivity.
  Qed.

  (** whole-array operations *)
  Lemma map_blocks_spec b (f : Z -> Z) (g : bool -> bool) : wf b ->
    (forall x, 0 <= x < 2 ^ bpb -> 0 <= f x < 2 ^ bpb /\ forall j, 0 <= j < bpb -> Z.testbit (f x) j = g (Z.testbit x j)) ->
    let b' := {| bs_blocks := f <$> bs_blocks b; bs_size := bs_size b |} in
    wf b' /\ bits_of b' = g <$> bits_of b.
  Proof.
    intros Hw Hf b'. pose proof Hw as (Hs & Hx & q & Hq & Hl). split.
    - split; [exact Hs|]. split.
      + intros y Hy. cbn in Hy. apply elem_of_list_fmap in Hy as (x & -> & Hin). apply Hf. auto.
      + exists q. cbn. rewrite fmap_length. auto.
    - unfold bits_of. rewrite <- list_fmap_compose. cbn [bs_size b']. apply list_fmap_ext. intros i x Hi.
      apply lookup_seqZ in Hi as [-> Hi]. cbn [Z.add]. unfold bit_at, compose, b'. cbn [bs_blocks].
      rewrite list_lookup_fmap. destruct (wf_block b (0 + Z.of_nat i) Hw) as (y & Hy & Hr); [lia|].
      cbn [Z.add] in Hy. rewrite Hy. cbn. apply Hf; [exact Hr|]. apply Z.mod_pos_bound, bpb_pos.
  Qed.

  Lemma lnot_wrap_bit x j : 0 <= j < bpb -> Z.testbit (wrap bpb (Z.lnot x)) j = negb (Z.testbit x j).
  Proof. intros Hj. unfold wrap. rewrite Z.mod_pow2_bits_low, Z.lnot_spec by lia. reflexivity. Qed.
  Lemma wrap_range x : 0 <= wrap bpb x < 2 ^ bpb.
  Proof. unfold wrap. apply Z.mod_pos_bound. apply pow2_pos. pose proof bpb_pos. lia. Qed.

  Lemma flip_blocks (bl : list Z) k : (k <= length bl)%nat ->
    fold_left (fun (acc : outcome (list Z)) (i : nat) =>
      let! bl := acc in match bl !! i with Some x => Ret (<[i := wrap bpb (Z.lnot x)]> bl) | None => UB end)
      (seq 0 k) (Ret bl) = Ret (((fun x => wrap bpb (Z.lnot x)) <$> take k bl) ++ drop k bl).
  Proof.
    induction k as [|k IH]; intros Hk.
    - reflexivity.
    - rewrite seq_S, fold_left_app, IH by lia. cbn [fold_left obind]. rewrite Nat.add_0_l.
      destruct (lookup_lt_is_Some_2 bl k) as [x Hx]; [lia|].
      rewrite lookup_app_r by (rewrite fmap_length, take_length; lia).
      rewrite fmap_length, take_length. replace (k - k `min` length bl)%nat with 0%nat by lia.
      rewrite lookup_drop, Nat.add_0_r, Hx. f_equal.
      rewrite insert_app_r_alt by (rewrite fmap_length, take_length; lia).
      rewrite fmap_length, take_length. replace (k - k `min` length bl)%nat with 0%nat by lia.
      rewrite (drop_S _ _ _ Hx). cbn. rewrite (take_S_r _ _ _ Hx), fmap_app, <- app_assoc. reflexivity.
  Qed.

  Lemma flip_all_spec b : wf b -> exists b', bitset_flip_all bpb b = Ret b' /\ wf b' /\ bits_of b' = negb <$> bits_of b /\ bs_size b' = bs_size b.
  Proof.
    intros Hw. pose proof Hw as (Hs & Hx & q & Hq & Hl).
    unfold bitset_flip_all, number_bit_blocks. rewrite Hq. cbn [obind].
    rewrite flip_blocks by lia. cbn [obind]. eexists. split; [reflexivity|].
    rewrite take_ge, drop_ge, app_nil_r by lia.
    destruct (map_blocks_spec b (fun x => wrap bpb (Z.lnot x)) negb Hw) as [H1 H2].
    - intros x Hr. split; [apply wrap_range|]. intros j Hj. apply lnot_wrap_bit. exact Hj.
    - auto.
  Qed.

  (** counting *)
  Lemma count_true_fmap {A} (f : A -> bool) l : count_true (f <$> l) = Z.of_nat (length (filter (fun x => f x = true) l)).
  Proof.
    unfold count_true. f_equal. induction l as [|a l IH]; [reflexivity|]. rewrite fmap_cons, !filter_cons.
    destruct (decide (f a = true)); cbn; rewrite IH; reflexivity.
  Qed.
  Lemma count_true_app l1 l2 : count_true (l1 ++ l2) = count_true l1 + count_true l2.
  Proof. unfold count_true. rewrite filter_app, app_length. lia. Qed.
  Lemma count_true_bound l : 0 <= count_true l <= Z.of_nat (length l).
  Proof. unfold count_true. pose proof (filter_length (fun b => b = true) l). lia. Qed.

  Lemma mask_full_bit j : 0 <= j < bpb -> Z.testbit (wrap bpb (Z.lnot 0)) j = true.
  Proof. intros Hj. rewrite lnot_wrap_bit by lia. rewrite Z.bits_0. reflexivity. Qed.

  Lemma block_mask_bit size i j : 0 < size - i * bpb -> 0 <= j < bpb ->
    Z.testbit (block_mask bpb size i) j = (j <? size - i * bpb).
  Proof.
    intros Hr Hj. unfold block_mask. set (r := size - i * bpb) in *.
    destruct (Z.leb_spec bpb r) as [Hge|Hlt].
    - rewrite mask_full_bit by lia. lia.
    - rewrite set_pattern by lia. pose proof (pow2_pos r). pose proof (pow2_mono_lt r bpb).
      rewrite wrap_small by lia.
      replace (2 ^ r - 1) with (Z.ones r) by (rewrite Z.ones_equiv; lia).
      destruct (Z.ltb_spec j r); [apply Z.ones_spec_low; lia|apply Z.ones_spec_high; lia].
  Qed.

  Lemma block_mask_nonneg size i : 0 <= block_mask bpb size i.
  Proof. unfold block_mask. destruct (bpb <=? _); apply wrap_range. Qed.

  Lemma count_block_bits_spec b i : wf b -> (i < length (bs_blocks b))%nat ->
    count_block_bits bpb b i =
      Ret (count_true (bit_at (bs_blocks b) <$> seqZ (Z.of_nat i * bpb) (Z.min bpb (bs_size b - Z.of_nat i * bpb)))).
  Proof.
    intros Hw Hi. pose proof Hw as (Hs & Hx & q & Hq & Hl). pose proof bpb_pos as Hb.
    destruct (div_up_bound _ _ (proj1 Hs) Hq) as (H1 & H2 & H3).
    unfold count_block_bits, block. destruct (lookup_lt_is_Some_2 _ _ Hi) as [x Ex]. rewrite Ex. cbn [obind].
    assert (Hrx : 0 <= x < 2 ^ bpb) by (apply Hx; eapply elem_of_list_lookup_2; exact Ex).
    assert (Hrem : 0 < bs_size b - Z.of_nat i * bpb) by nia.
    pose proof (block_mask_nonneg (bs_size b) (Z.of_nat i)).
    rewrite popcount_spec; [|lia| |lia].
    2: { apply range_of_bits; [apply Z.land_nonneg; lia|]. intros j Hj. rewrite Z.land_spec.
         rewrite (testbit_high x bpb) by lia. apply andb_false_r. }
    f_equal. unfold ones_count. rewrite count_true_fmap. f_equal.
    set (r := bs_size b - Z.of_nat i * bpb) in *.
    (* filter over [0,bpb) of mask && x   vs   filter over the shifted range *)
    replace (seqZ (Z.of_nat i * bpb) (Z.min bpb r)) with (Z.add (Z.of_nat i * bpb) <$> seqZ 0 (Z.min bpb r)).
    2: { rewrite fmap_add_seqZ. f_equal. lia. }
    assert (E : forall l, length (filter (fun n => bit_at (bs_blocks b) n = true) (Z.add (Z.of_nat i * bpb) <$> l))
                 = length (filter (fun j => bit_at (bs_blocks b) (Z.of_nat i * bpb + j) = true) l)).
    { induction l as [|a l IHl]; [reflexivity|]. rewrite fmap_cons, !filter_cons.
      destruct (decide (bit_at (bs_blocks b) (Z.of_nat i * bpb + a) = true)); cbn; rewrite IHl; reflexivity. }
    rewrite E.
    replace (seqZ 0 bpb) with (seqZ 0 (Z.min bpb r) ++ seqZ (Z.min bpb r) (bpb - Z.min bpb r)).
    2: { symmetry. rewrite <- (Z.add_0_l (Z.min bpb r)) at 2. rewrite <- seqZ_app by lia. f_equal. lia. }
    rewrite filter_app, app_length.
    assert (Z2 : filter (fun j => Z.testbit (Z.land (block_mask bpb (bs_size b) (Z.of_nat i)) x) j = true) (seqZ (Z.min bpb r) (bpb - Z.min bpb r)) = []).
    { match goal with |- ?f = [] => destruct f as [|a l] eqn:Ef; [reflexivity|] end. exfalso.
      apply filter_head in Ef as [Ef1 Ef2]. apply elem_of_seqZ in Ef2.
      rewrite Z.land_spec, block_mask_bit in Ef1 by (fold r; lia). fold r in Ef1.
      apply andb_true_iff in Ef1 as [Ef1 _]. lia. }
    rewrite Z2. cbn [length]. rewrite Nat.add_0_r. f_equal. apply list_filter_ext_in.
    intros j Hj. apply elem_of_seqZ in Hj.
    rewrite Z.land_spec, block_mask_bit by (fold r; lia). fold r. replace (j <? r) with true by lia. cbn.
    unfold bit_at.
    assert (E1 : (Z.of_nat i * bpb + j) / bpb = Z.of_nat i).
    { symmetry. apply (Z.div_unique _ _ (Z.of_nat i) j); lia. }
    assert (E2 : (Z.of_nat i * bpb + j) mod bpb = j).
    { symmetry. apply (Z.mod_unique _ _ (Z.of_nat i) j); lia. }
    rewrite E1, E2, Nat2Z.id, Ex. tauto.
  Qed.

  Lemma to_int32_small x : 0 <= x < 2 ^ 31 -> to_int32 x = x.
  Proof. intros H. unfold to_int32. rewrite Z.mod_small by lia. lia. Qed.

  Lemma to_int32_add a c : to_int32 (to_int32 a + c) = to_int32 (a + c).
  Proof.
    unfold to_int32. f_equal. replace ((a + 2 ^ 31) mod 2 ^ 32 - 2 ^ 31 + c + 2 ^ 31) with ((a + 2 ^ 31) mod 2 ^ 32 + c) by lia.
    rewrite Zplus_mod_idemp_l. f_equal. lia.
  Qed.

  Lemma count_prefix b k : wf b -> (k <= length (bs_blocks b))%nat ->
    fold_left (fun acc i => let! a := acc in let! c := count_block_bits bpb b i in Ret (to_int32 (a + c))) (seq 0 k) (Ret 0)
    = Ret (to_int32 (count_true (bit_at (bs_blocks b) <$> seqZ 0 (Z.min (Z.of_nat k * bpb) (bs_size b))))).
  Proof.
    intros Hw. pose proof Hw as (Hs & Hx & q & Hq & Hl). pose proof bpb_pos as Hb.
    destruct (div_up_bound _ _ (proj1 Hs) Hq) as (H1 & H2 & H3).
    induction k as [|k IH]; intros Hk.
    - cbn [seq fold_left]. rewrite Z.min_l by lia. rewrite Z.mul_0_l. reflexivity.
    - rewrite seq_S, fold_left_app, IH by lia. cbn [fold_left obind]. rewrite Nat.add_0_l.
      rewrite count_block_bits_spec by (auto; lia). cbn [obind]. f_equal.
      assert (Hle : Z.of_nat k * bpb < bs_size b) by nia.
      rewrite (Z.min_l (Z.of_nat k * bpb)) by lia.
      rewrite to_int32_add. f_equal.
      rewrite <- count_true_app, <- fmap_app.
      change (seqZ (Z.of_nat k * bpb)) with (seqZ (0 + Z.of_nat k * bpb)).
      rewrite <- seqZ_app by lia.
      replace (Z.of_nat k * bpb + Z.min bpb (bs_size b - Z.of_nat k * bpb)) with (Z.min (Z.of_nat (S k) * bpb) (bs_size b)) by lia.
      reflexivity.
  Qed.

  Lemma count_spec_mod b : wf b -> bitset_count bpb b = Ret (to_int32 (count_true (bits_of b))).
  Proof.
    intros Hw. pose proof Hw as (Hs & Hx & q & Hq & Hl). unfold bitset_count.
    destruct (Z.eqb_spec (bs_size b) 0) as [E|E].
    - unfold bits_of. rewrite E. reflexivity.
    - unfold number_bit_blocks. rewrite Hq. cbn [obind]. rewrite count_prefix by (auto; lia).
      destruct (div_up_bound _ _ (proj1 Hs) Hq) as (H1 & H2 & H3).
      unfold bits_of. rewrite Z2Nat.id, Z.min_r by lia. reflexivity.
  Qed.

  Lemma count_spec b : wf b -> bs_size b < 2 ^ 31 -> bitset_count bpb b = Ret (count_true (bits_of b)).
  Proof.
    intros Hw Hsz. rewrite count_spec_mod by exact Hw. f_equal. apply to_int32_small.
    pose proof (count_true_bound (bits_of b)). pose proof Hw as (Hs & _). pose proof (bits_length b). lia.
  Qed.

  Lemma len_zero b : wf b -> (length (bits_of b) =? 0)%nat = (bs_size b =? 0).
  Proof. intros (Hs & _). pose proof (bits_length b). lia. Qed.

  Lemma step_refines b op : wf b -> bs_size b < 2 ^ 31 ->
    match spec_step (bits_of b) op with
    | Ret (l, r) => exists b', bitset_step bpb b op = Ret (b', r) /\ wf b' /\ bits_of b' = l /\ bs_size b' = bs_size b
    | UB => bitset_step bpb b op = UB
    | Hang => False
    end.
  Proof.
    intros Hw Hsz. pose proof Hw as (Hs & _).
    destruct op as [n v|n|n|n| | | | | | | | |]; cbn [spec_step bitset_step].
    - pose proof (ref_assign_spec b n v Hw) as H. unfold bitset_set.
      destruct (spec_update _ _ _) as [[l r]| |] eqn:Eu; [| |exact H].
      + destruct H as (b' & o & E & -> & H1 & H2 & H3).
        assert (Hn : (0 <=? n) && (n <? bs_size b) = true).
        { unfold spec_update in Eu. rewrite idx_bits in Eu by exact Hw. destruct (_ && _); [reflexivity|discriminate]. }
        rewrite Hn, E. cbn. eauto.
      + rewrite H. destruct (_ && _); reflexivity.
    - pose proof (ref_assign_spec b n false Hw) as H. unfold bitset_reset, bitset_set.
      destruct (spec_update _ _ _) as [[l r]| |] eqn:Eu; [| |exact H].
      + destruct H as (b' & o & E & -> & H1 & H2 & H3).
        assert (Hn : (0 <=? n) && (n <? bs_size b) = true).
        { unfold spec_update in Eu. rewrite idx_bits in Eu by exact Hw. destruct (_ && _); [reflexivity|discriminate]. }
        rewrite Hn, E. cbn. eauto.
      + rewrite H. destruct (_ && _); reflexivity.
    - pose proof (ref_flip_spec b n Hw) as H. unfold bitset_flip.
      destruct (spec_update _ _ _) as [[l r]| |] eqn:Eu; [| |exact H].
      + destruct H as (b' & o & E & -> & H1 & H2 & H3).
        assert (Hn : (0 <=? n) && (n <? bs_size b) = true).
        { unfold spec_update in Eu. rewrite idx_bits in Eu by exact Hw. destruct (_ && _); [reflexivity|discriminate]. }
        rewrite Hn, E. cbn. eauto.
      + rewrite H. destruct (_ && _); reflexivity.
    - pose proof (ref_get_spec b n Hw) as H.
      destruct (spec_update _ _ _) as [[l r]| |] eqn:Eu; [| |exact H].
      + destruct H as (o & E & -> & ->). rewrite E. cbn. eauto.
      + rewrite H. reflexivity.
    - destruct (map_blocks_spec b (fun _ => wrap bpb (Z.lnot 0)) (fun _ => true) Hw) as [H1 H2].
      { intros x Hx. split; [apply wrap_range|]. intros. apply mask_full_bit. assumption. }
      eexists. split; [reflexivity|]. auto.
    - destruct (map_blocks_spec b (fun _ => 0) (fun _ => false) Hw) as [H1 H2].
      { intros x Hx. split; [pose proof (pow2_pos bpb); pose proof bpb_pos; lia|]. intros. apply Z.bits_0. }
      eexists. split; [reflexivity|]. auto.
    - destruct (flip_all_spec b Hw) as (b' & E & H1 & H2 & H3). rewrite E. cbn. eauto.
    - rewrite count_spec by assumption. cbn. eauto.
    - unfold bitset_all. rewrite count_spec by assumption. rewrite len_zero, bits_length by (assumption || lia).
      destruct (bs_size b =? 0); cbn; eauto.
    - unfold bitset_any. rewrite count_spec by assumption. rewrite len_zero by assumption.
      destruct (bs_size b =? 0); cbn; eauto.
    - unfold bitset_none. rewrite count_spec by assumption. rewrite len_zero by assumption.
      destruct (bs_size b =? 0); cbn; eauto.
    - rewrite bits_length by lia. eauto.
    - rewrite len_zero by assumption. eauto.
  Qed.

  Lemma create_spec size : 0 <= size < 2 ^ 63 ->
    exists b, bitset_create bpb size = Ret b /\ wf b /\ bits_of b = replicate (Z.to_nat size) false /\ bs_size b = size.
  Proof.
    intros Hs. pose proof bpb_pos as Hb. unfold bitset_create, number_bit_blocks.
    destruct (proj1 (div_up_spec size bpb)) as (q & Eq & H1 & H2 & H3); [lia|lia|].
    rewrite Eq. cbn [obind]. eexists. split; [reflexivity|].
    split; [|split].
    - split; [exact Hs|]. cbn [bs_blocks bs_size]. split.
      + intros x Hx. apply elem_of_replicate in Hx as [-> _]. pose proof (pow2_pos bpb). lia.
      + exists q. rewrite replicate_length. split; [exact Eq|lia].
    - unfold bits_of. cbn [bs_size bs_blocks].
      assert (E : forall n, bit_at (replicate (Z.to_nat q) 0) n = false).
      { intros n. unfold bit_at. destruct (_ !! _) as [x|] eqn:Ex; [|reflexivity].
        apply lookup_replicate in Ex as [-> _]. apply Z.bits_0. }
      apply list_eq. intros i. rewrite list_lookup_fmap.
      destruct (decide (i < Z.to_nat size)%nat).
      + rewrite lookup_seqZ_lt by lia. rewrite lookup_replicate_2 by lia. cbn. rewrite E. reflexivity.
      + rewrite lookup_seqZ_ge by lia. symmetry. apply lookup_ge_None_2. rewrite replicate_length. lia.
    - reflexivity.
  Qed.

  (** the whole history *)
  Lemma run_refines ops : forall b, wf b -> bs_size b < 2 ^ 31 ->
    match spec_run (bits_of b) ops with
    | Ret (l, rs) => exists b', bitset_run bpb b ops = Ret (b', rs) /\ wf b' /\ bits_of b' = l
    | UB => bitset_run bpb b ops = UB
    | Hang => False
    end.
  Proof.
    induction ops as [|op ops IH]; intros b Hw Hsz; cbn [spec_run bitset_run].
    - eauto.
    - pose proof (step_refines b op Hw Hsz) as H.
      destruct (spec_step (bits_of b) op) as [[l r]| |]; [| |contradiction].
      + destruct H as (b' & E & Hw' & <- & Hsz'). rewrite E. cbn [obind].
        specialize (IH b' Hw' ltac:(lia)). destruct (spec_run (bits_of b') ops) as [[l2 rs]| |]; [| |contradiction].
        * destruct IH as (b2 & E2 & Hw2 & <-). rewrite E2. cbn [obind]. eauto.
        * rewrite IH. reflexivity.
      + rewrite H. reflexivity.
  Qed.

  Lemma history_refines size ops : 0 <= size < 2 ^ 31 ->
    exists b0, bitset_create bpb size = Ret b0 /\
    match spec_run (replicate (Z.to_nat size) false) ops with
    | Ret (_, rs) => exists b', bitset_run bpb b0 ops = Ret (b', rs)
    | UB => bitset_run bpb b0 ops = UB
    | Hang => False
    end.
  Proof.
    intros Hs. destruct (create_spec size) as (b & E & Hw & Hb & Hsz); [lia|].
    exists b. split; [exact E|]. pose proof (run_refines ops b Hw ltac:(lia)) as H. rewrite Hb in H.
    destruct (spec_run _ ops) as [[l rs]| |]; [|exact H|exact H].
    destruct H as (b' & E' & _). eauto.
  Qed.

  (** without the 32 bit index limit: the int accumulator wraps *)
  Lemma count_true_all (l : list bool) : count_true ((fun _ => true) <$> l) = Z.of_nat (length l).
  Proof.
    rewrite count_true_fmap. f_equal. induction l as [|a l IH]; [reflexivity|]. rewrite filter_cons_True by reflexivity.
    cbn. rewrite IH. reflexivity.
  Qed.
  Lemma count_wraps : exists b0 b,
    bitset_create bpb (2 ^ 31) = Ret b0 /\ b = bitset_set_all bpb b0 /\ bitset_count bpb b = Ret (- 2 ^ 31).
  Proof.
    destruct (create_spec (2 ^ 31)) as (b & E & Hw & Hb & Hsz); [lia|]. exists b, (bitset_set_all bpb b).
    split; [exact E|]. split; [reflexivity|].
    destruct (map_blocks_spec b (fun _ => wrap bpb (Z.lnot 0)) (fun _ => true) Hw) as [H1 H2].
    { intros x Hx. split; [apply wrap_range|]. intros. apply mask_full_bit. assumption. }
    rewrite count_spec_mod by exact H1. unfold bitset_set_all. rewrite H2, count_true_all, bits_length by lia.
    rewrite Hsz. reflexivity.
  Qed.

  (** block count *)
  Lemma create_blocks size : 0 <= size < 2 ^ 63 ->
    exists b, bitset_create bpb size = Ret b /\
      let n := Z.of_nat (length (bs_blocks b)) in
      size <= n * bpb /\ (forall m, size <= m * bpb -> n <= m) /\
      (forall i, 0 <= i < size -> exists k bit_n x, locate bpb b i = Ret (k, bit_n) /\ bs_blocks b !! k = Some x /\
          0 <= bit_n < bpb /\ i = Z.of_nat k * bpb + bit_n).
  Proof.
    intros Hs. destruct (create_spec size) as (b & E & Hw & Hb & Hsz); [lia|].
    exists b. split; [exact E|]. cbn zeta. pose proof Hw as (H0 & _ & q & Hq & Hl). rewrite Hl.
    pose proof bpb_pos. rewrite Hsz in *.
    destruct (proj1 (div_up_spec size bpb)) as (q' & E' & H1 & H2 & H3); [lia|lia|].
    rewrite E' in Hq. injection Hq as ->. split; [lia|]. split; [intros m Hm; apply H3; lia|].
    intros i Hi. destruct (wf_block b i Hw) as (x & Hx & _); [lia|].
    exists (Z.to_nat (i / bpb)), (i mod bpb), x. split; [apply locate_ok; [exact Hw|lia]|].
    split; [exact Hx|]. split; [apply Z.mod_pos_bound; lia|].
    assert (0 <= i / bpb) by (apply Z.div_pos; lia). rewrite Z2Nat.id by lia.
    rewrite (Z.div_mod i bpb) at 1 by lia. lia.
  Qed.

  (** ** concurrency: every single-bit call performs one atomic read-modify-write (or load) on one block;
      the object step is the whole call. *)

  Lemma conc_step_inv b op x : conc_step bpb b op = Some x -> bitset_step bpb b op = Ret x.
  Proof.
    unfold conc_step. destruct op; try discriminate;
      (destruct (bitset_step bpb b _) as [y| |]; [|discriminate|discriminate]); intros H; injection H as <-; reflexivity.
  Qed.

  Lemma seq_exec_refines h : forall b b', wf b -> bs_size b < 2 ^ 31 -> seq_exec (conc_step bpb) b h b' ->
    seq_exec spec_ostep (bits_of b) h (bits_of b') /\ wf b' /\ bs_size b' = bs_size b.
  Proof.
    induction h as [|[[i op] r] h IH]; intros b b' Hw Hsz H; cbn in H.
    - subst. cbn. auto.
    - destruct H as (b1 & E & H). apply conc_step_inv in E. pose proof (step_refines b op Hw Hsz) as HS.
      cbn [seq_exec]. unfold spec_ostep at 1.
      destruct (spec_step (bits_of b) op) as [[l r']| |]; [| |contradiction].
      + destruct HS as (b2 & E2 & Hw2 & <- & Hs2). rewrite E2 in E. injection E as <- <-.
        destruct (IH b2 b' Hw2 ltac:(lia) H) as (H1 & H2 & H3). split; [eauto|]. split; [exact H2|lia].
      + rewrite HS in E. discriminate.
  Qed.

  Lemma concurrent_bits size progs b0 b h ls : 0 <= size < 2 ^ 31 -> bitset_create bpb size = Ret b0 ->
    reach (obj_step (conc_step bpb)) (obj_init b0 progs) ((b, h), ls) ->
    seq_exec spec_ostep (replicate (Z.to_nat size) false) h (bits_of b) /\
    (forall i l, ls !! i = Some l -> o_log l = hist_of i h /\ progs !! i = Some ((o_log l).*1 ++ o_prog l)).
  Proof.
    intros Hs E Hr. destruct (create_spec size) as (b1 & E1 & Hw & Hb & Hsz); [lia|].
    rewrite E in E1. injection E1 as <-.
    destruct (obj_linearizable _ _ _ _ _ _ Hr) as (H1 & _ & H3).
    destruct (seq_exec_refines h b0 b Hw ltac:(lia) H1) as (H4 & _). rewrite Hb in H4. auto.
  Qed.
End proofs.

(** exactly one winner among set(n) calls *)
Lemma spec_update_inv l n f l' r : spec_update l n f = Ret (l', r) ->
  exists old, 0 <= n < Z.of_nat (length l) /\ l !! Z.to_nat n = Some old /\ l' = <[Z.to_nat n := f old]> l /\ r = RBool old.
Proof.
  unfold spec_update, idx. destruct ((0 <=? n) && (n <? Z.of_nat (length l))) eqn:E; [|discriminate].
  destruct (l !! Z.to_nat n) as [old|] eqn:El; [|discriminate]. intros H. injection H as <- <-.
  exists old. split; [lia|]. auto.
Qed.

Lemma wins_app n l1 l2 : wins n (l1 ++ l2) = wins n l1 + wins n l2.
Proof. unfold wins. rewrite filter_app, app_length. lia. Qed.

Lemma update_ne l m n f l' r : 0 <= n -> m <> n -> spec_update l m f = Ret (l', r) -> l' !! Z.to_nat n = l !! Z.to_nat n.
Proof.
  intros Hn Hne H. apply spec_update_inv in H as (old & Hm & E & -> & ->). apply list_lookup_insert_ne. lia.
Qed.

Lemma wins_single_other n op r : op <> BSet n true -> wins n [(op, r)] = 0.
Proof.
  intros Hne. unfold wins. rewrite filter_cons. destruct (decide _) as [E|E]; [|reflexivity].
  injection E as E _. contradiction.
Qed.

(** effect of one allowed call on bit n and on the number of winners *)
Lemma spec_step_wins l op l' r n : 0 <= n -> keeps_bit n op -> spec_step l op = Ret (l', r) ->
  length l' = length l /\
  (n < Z.of_nat (length l) ->
    exists x x', l !! Z.to_nat n = Some x /\ l' !! Z.to_nat n = Some x' /\
      Z.b2z x' = Z.b2z x + wins n [(op, r)] /\ (op = BSet n true -> x' = true)).
Proof.
  intros Hn Hk H.
  assert (Hlen : length l' = length l).
  { destruct op; cbn in H; try (injection H as <- _; rewrite ?fmap_length; reflexivity);
      apply spec_update_inv in H as (old & _ & _ & -> & _); apply insert_length. }
  split; [exact Hlen|]. intros Hlt.
  destruct (lookup_lt_is_Some_2 l (Z.to_nat n)) as [x Hx]; [lia|]. exists x.
  assert (Hsame : op <> BSet n true -> l' !! Z.to_nat n = Some x -> 
     exists x', l !! Z.to_nat n = Some x /\ l' !! Z.to_nat n = Some x' /\
      Z.b2z x' = Z.b2z x + wins n [(op, r)] /\ (op = BSet n true -> x' = true)).
  { intros Hne Hl'. exists x. rewrite wins_single_other by exact Hne. split; [exact Hx|]. split; [exact Hl'|].
    split; [lia|]. intros; contradiction. }
  destruct op as [m v|m|m|m| | | | | | | | |]; cbn in Hk; try contradiction.
  - destruct (decide (m = n)) as [->|Hne].
    + rewrite (Hk eq_refl) in *. clear Hk Hsame. cbn in H. apply spec_update_inv in H as (old & _ & E & -> & ->).
      rewrite E in Hx. injection Hx as ->. exists true. split; [exact E|]. split; [apply list_lookup_insert; lia|].
      split; [|reflexivity]. unfold wins. rewrite filter_cons. destruct x; destruct (decide _) as [D|D]; try reflexivity.
      * discriminate D.
      * contradiction D; reflexivity.
    + apply Hsame; [congruence|]. cbn in H. rewrite (update_ne _ _ _ _ _ _ Hn Hne H). exact Hx.
  - apply Hsame; [discriminate|]. cbn in H. rewrite (update_ne _ _ _ _ _ _ Hn Hk H). exact Hx.
  - apply Hsame; [discriminate|]. cbn in H. rewrite (update_ne _ _ _ _ _ _ Hn Hk H). exact Hx.
  - apply Hsame; [discriminate|]. cbn in H. apply spec_update_inv in H as (old & _ & E & -> & ->).
    destruct (decide (m = n)) as [->|Hne'].
    + rewrite E in Hx. injection Hx as ->. rewrite list_insert_id by exact E. exact E.
    + rewrite list_insert_id by exact E. exact Hx.
  - apply Hsame; [discriminate|]. cbn in H. injection H as <- _. exact Hx.
  - apply Hsame; [discriminate|]. cbn in H. injection H as <- _. exact Hx.
  - apply Hsame; [discriminate|]. cbn in H. injection H as <- _. exact Hx.
  - apply Hsame; [discriminate|]. cbn in H. injection H as <- _. exact Hx.
  - apply Hsame; [discriminate|]. cbn in H. injection H as <- _. exact Hx.
  - apply Hsame; [discriminate|]. cbn in H. injection H as <- _. exact Hx.
Qed.

Section winner.
  Context (bpb : Z).
  Hypothesis Hpow : is_pow2 64 bpb.
  Hypothesis Hsmall : bpb <= 64.

  Lemma one_winner size progs b0 b h ls n :
    0 <= n < size -> size < 2 ^ 31 -> bitset_create bpb size = Ret b0 ->
    (forall p op, p ∈ progs -> op ∈ p -> keeps_bit n op) ->
    reach (obj_step (conc_step bpb)) (obj_init b0 progs) ((b, h), ls) ->
    let total := sumZ (fun t => wins n (o_log t)) ls in
    total <= 1 /\
    ((exists t r, t ∈ ls /\ (BSet n true, r) ∈ o_log t) -> total = 1).
  Proof.
    intros Hn Hsz Hc Hkeep Hr total.
    destruct (create_spec bpb Hpow Hsmall size) as (b1 & E1 & Hw & Hb & Hbs); [lia|].
    rewrite Hc in E1. injection E1 as <-.
    assert (I : forall c, reach (obj_step (conc_step bpb)) (obj_init b0 progs) c ->
      wf bpb c.1.1 /\ bs_size c.1.1 = size /\
      (forall t op, t ∈ c.2 -> op ∈ o_prog t -> keeps_bit n op) /\
      exists x, bits_of bpb c.1.1 !! Z.to_nat n = Some x /\ sumZ (fun t => wins n (o_log t)) c.2 = Z.b2z x /\
        (forall t r, t ∈ c.2 -> (BSet n true, r) ∈ o_log t -> x = true)).
    { intros c Hrc.
      refine (invariant (obj_step (conc_step bpb)) (fun c => wf bpb c.1.1 /\ bs_size c.1.1 = size /\
      (forall t op, t ∈ c.2 -> op ∈ o_prog t -> keeps_bit n op) /\
      exists x, bits_of bpb c.1.1 !! Z.to_nat n = Some x /\ sumZ (fun t => wins n (o_log t)) c.2 = Z.b2z x /\
        (forall t r, t ∈ c.2 -> (BSet n true, r) ∈ o_log t -> x = true)) _ (obj_init b0 progs) c _ Hrc).
      - clear c Hrc. intros c c' (I1 & I2 & I3 & x & I4 & I5 & I6) Hs.
        destruct Hs as [[s1 h1] ls1 i l [s2 h2] l' Hi Hst]. cbn [fst snd] in *.
        unfold obj_step in Hst. destruct (o_prog l) as [|op rest] eqn:Ep; [discriminate|]. cbn [fst snd] in Hst.
        destruct (conc_step bpb s1 op) as [[s3 r]|] eqn:Eo; [|discriminate].
        injection Hst as <- <- <-.
        assert (Hin : l ∈ ls1) by (eapply elem_of_list_lookup_2; exact Hi).
        assert (Hk : keeps_bit n op) by (apply (I3 l op Hin); rewrite Ep; left).
        apply conc_step_inv in Eo. pose proof (step_refines bpb Hpow Hsmall s1 op I1 ltac:(lia)) as HS.
        destruct (spec_step (bits_of bpb s1) op) as [[l2 r2]| |] eqn:Es; [|rewrite HS in Eo; discriminate|contradiction].
        destruct HS as (s4 & E4 & Hw4 & Hb4 & Hs4). rewrite E4 in Eo. injection Eo as <- <-.
        destruct (spec_step_wins _ _ _ _ n (proj1 Hn) Hk Es) as [Hl HL].
        assert (Hlen : n < Z.of_nat (length (bits_of bpb s1))).
        { rewrite bits_length by lia. lia. }
        destruct (HL Hlen) as (y & y' & Hy & Hy' & Hsum & Hset). rewrite I4 in Hy. injection Hy as <-.
        split; [exact Hw4|]. split; [lia|]. split.
        { intros t op' Ht Hop. apply elem_of_list_lookup in Ht as [j Hj]. destruct (decide (i = j)) as [->|Hne].
          - rewrite list_lookup_insert in Hj by (eapply lookup_lt_Some; eassumption). injection Hj as <-. cbn in Hop.
            apply (I3 l op' Hin). rewrite Ep. right. exact Hop.
          - rewrite list_lookup_insert_ne in Hj by exact Hne. eapply I3; [eapply elem_of_list_lookup_2; exact Hj|exact Hop]. }
        exists y'. rewrite Hb4. split; [exact Hy'|]. split.
        { rewrite (sumZ_insert _ _ _ _ _ Hi). cbn [o_log]. rewrite wins_app. lia. }
        intros t r' Ht Hlog. apply elem_of_list_lookup in Ht as [j Hj].
        assert (Hkeepx : x = true -> y' = true).
        { intros ->. destruct y'; [reflexivity|]. cbn in Hsum. unfold wins in Hsum. lia. }
        destruct (decide (i = j)) as [->|Hne].
        + rewrite list_lookup_insert in Hj by (eapply lookup_lt_Some; eassumption). injection Hj as <-. cbn in Hlog.
          apply elem_of_app in Hlog as [Hlog|Hlog].
          * apply Hkeepx. eapply I6; eauto.
          * apply elem_of_list_singleton in Hlog. injection Hlog as <- <-. auto.
        + rewrite list_lookup_insert_ne in Hj by exact Hne. apply Hkeepx. eapply I6; [eapply elem_of_list_lookup_2; exact Hj|exact Hlog].
      - unfold obj_init. cbn [fst snd]. split; [exact Hw|]. split; [exact Hbs|]. split.
        { intros t op Ht Hop. apply elem_of_list_fmap in Ht as (p & -> & Hp). cbn in Hop. eauto. }
        exists false. rewrite Hb. split; [apply lookup_replicate_2; lia|]. split.
        { apply sumZ_zero. intros t Ht. apply elem_of_list_fmap in Ht as (p & -> & Hp). reflexivity. }
        intros t r Ht Hlog. apply elem_of_list_fmap in Ht as (p & -> & Hp). cbn in Hlog. apply elem_of_nil in Hlog. contradiction. }
    destruct (I _ Hr) as (_ & _ & _ & x & _ & Hsum & Hset). cbn [fst snd] in *. subst total. rewrite Hsum.
    split; [destruct x; cbn; lia|]. intros (t & r & Ht & Hlog). rewrite (Hset t r Ht Hlog). reflexivity.
  Qed.
End winner.

Section counts.
  Context (bpb : Z).
  Hypothesis Hpow : is_pow2 64 bpb.
  Hypothesis Hsmall : bpb <= 64.
  Lemma run_size ops : forall b b' rs, bitset_run bpb b ops = Ret (b', rs) -> wf bpb b -> bs_size b < 2 ^ 31 -> bs_size b' = bs_size b.
  Proof.
    induction ops as [|op ops IH]; intros b b' rs H Hw Hsz; cbn [bitset_run] in H.
    - injection H as <- _. reflexivity.
    - pose proof (step_refines bpb Hpow Hsmall b op Hw Hsz) as HS.
      destruct (spec_step (bits_of bpb b) op) as [[l r]| |]; [|rewrite HS in H; discriminate|contradiction].
      destruct HS as (b1 & E & Hw1 & _ & Hs1). rewrite E in H. cbn [obind] in H.
      destruct (bitset_run bpb b1 ops) as [[b2 rs2]| |] eqn:E2; [|discriminate|discriminate]. cbn [obind] in H.
      injection H as <- _. rewrite (IH _ _ _ E2 Hw1 ltac:(lia)). exact Hs1.
  Qed.

  Lemma counts_after size ops b0 b rs bits : 0 <= size < 2 ^ 31 ->
    bitset_create bpb size = Ret b0 -> bitset_run bpb b0 ops = Ret (b, rs) ->
    spec_run (replicate (Z.to_nat size) false) ops = Ret (bits, rs) ->
    let trues := Z.of_nat (length (filter (fun x => x = true) bits)) in
    bitset_count bpb b = Ret trues /\
    bitset_all bpb b = Ret ((0 <? size) && (trues =? size)) /\
    bitset_any bpb b = Ret ((0 <? size) && (0 <? trues)) /\
    bitset_none bpb b = Ret ((0 <? size) && (trues =? 0)).
  Proof.
    intros Hs Hc Hr Hspec trues.
    destruct (create_spec bpb Hpow Hsmall size) as (b1 & E1 & Hw & Hb & Hbs); [lia|].
    rewrite Hc in E1. injection E1 as <-.
    pose proof (run_refines bpb Hpow Hsmall ops b0 Hw ltac:(lia)) as HR. rewrite Hb, Hspec in HR.
    destruct HR as (b2 & E2 & Hw2 & Hb2). rewrite Hr in E2. injection E2 as <-.
    pose proof (run_size _ _ _ _ Hr Hw ltac:(lia)) as Hsz.
    assert (Hcount : bitset_count bpb b = Ret trues).
    { rewrite count_spec by (try assumption; lia). rewrite Hb2. reflexivity. }
    unfold bitset_all, bitset_any, bitset_none. rewrite Hcount, Hsz, Hbs. cbn [obind].
    destruct (Z.eqb_spec size 0) as [->|?].
    - cbn. auto.
    - replace (0 <? size) with true by lia. cbn. auto.
  Qed.
End counts.
