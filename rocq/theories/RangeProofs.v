(** Proofs about array iterators and ranges. *)
From Verif Require Import Base MemoryModel MemorySpec MemoryProofs MemoryArrayProofs MemoryFinalProofs RangeModel.

Section range_proofs.
  Context (sz : Z) (Hsz : 0 < sz).
  Definition addresses (p : Z) (n : nat) : list Z := (fun i => p + Z.of_nat i * sz) <$> seq 0 n.
  Lemma addresses_S p n : addresses p (S n) = p :: addresses (p + sz) n.
  Proof.
    unfold addresses. cbn [seq fmap list_fmap]. f_equal; [lia|]. rewrite <- seq_shift. change (fmap (fun i => p + Z.of_nat i * sz) (S <$> seq 0 n) = (fun i => p + sz + Z.of_nat i * sz) <$> seq 0 n).
    rewrite <- list_fmap_compose. apply list_fmap_ext. intros i x _. cbn. lia.
  Qed.
  Lemma addresses_lookup p n i a : addresses p n !! i = Some a <-> (i < n)%nat /\ a = p + Z.of_nat i * sz.
  Proof.
    unfold addresses. rewrite list_lookup_fmap_Some. split.
    - intros (j & Hj & ->). apply lookup_seq in Hj as [-> H]. split; [lia|f_equal; lia].
    - intros [H ->]. exists i. split; [apply lookup_seq; lia|reflexivity].
  Qed.
  Lemma visits_unique n : forall p l, visits sz (p + Z.of_nat n * sz) p l <-> l = addresses p n.
  Proof using Hsz.
    induction n as [|n IH]; intros p l.
    - replace (p + Z.of_nat 0 * sz) with p by lia. split; [|intros ->; constructor]. intros H. inversion H as [|? ? Hne _]; subst; [reflexivity|]. congruence.
    - rewrite addresses_S. specialize (IH (p + sz)). replace (p + sz + Z.of_nat n * sz) with (p + Z.of_nat (S n) * sz) in IH by lia. split.
      + intros H. inversion H as [|a l' Hne H']; subst; [nia|]. f_equal. apply IH. exact H'.
      + intros ->. constructor; [nia|]. apply IH. reflexivity.
  Qed.
  Lemma iterates_n p n l : 0 <= n -> iterates sz (range_n sz p n) l <-> l = addresses p (Z.to_nat n).
  Proof using Hsz. intros Hn. unfold iterates, range_n. cbn [r_begin r_end]. rewrite <- (visits_unique (Z.to_nat n) p l), Z2Nat.id by lia. reflexivity. Qed.
  Lemma size_n p n : range_size sz (range_n sz p n) = Ret n.
  Proof using Hsz.
    unfold range_size, range_n. cbn [r_begin r_end]. replace (p + n * sz - p) with (n * sz) by lia. rewrite Z.mod_mul, Z.div_mul by lia. reflexivity.
  Qed.

  Context (malloc : nat -> list (Z * Z) -> Z -> Z) (Hm : malloc_ok malloc) (Hnf : never_fails malloc) (dc : bool) (ord : nat -> list nat).
  Context (ops : list (Z * aop)) (s : mem) (rs : list mres) (Hs : sized ops) (Hrun : arr_run malloc dc ord mem0 ops = Ret (s, rs)).

  Lemma block_size p m : (p, m) ∈ heap s -> size_bytes s p = m /\ 0 < m.
  Proof using All.
    intros H. destruct (arr_reach malloc Hm Hnf dc ord ops s rs Hs Hrun) as (b & A & _). pose proof H as H2. rewrite (sr_heap _ _ (proj1 A)) in H. apply elem_of_list_fmap in H as ([[p' m'] t] & E & H). cbn in E. injection E as -> ->.
    destruct (size_bytes_live malloc Hm Hnf s b p' m' t A H) as [-> _]. split; [reflexivity|]. exact (proj2 (hr_pos _ (sr_hrep _ _ (proj1 A)) _ _ H2)).
  Qed.
  Lemma no_block_size p : p ∉ (heap s).*1 -> size_bytes s p = 0.
  Proof using All.
    intros H. destruct (arr_reach malloc Hm Hnf dc ord ops s rs Hs Hrun) as (b & A & _). rewrite (sr_heap _ _ (proj1 A)) in H.
    refine (proj1 (size_bytes_dead malloc Hm Hnf s b p A _)). intros t [n Hk]. apply H. apply elem_of_list_fmap. exists (p, n). split; [reflexivity|]. apply elem_of_list_fmap. exists (p, n, t). auto.
  Qed.
  Lemma array_size_nonneg p : 0 <= array_size sz s p.
  Proof using All.
    destruct (decide (p ∈ (heap s).*1)) as [H|H].
    - apply elem_of_list_fmap in H as ([p' m] & -> & H). destruct (block_size _ _ H) as [E Hp]. unfold array_size. cbn [fst]. rewrite E. destruct (negb _); [lia|]. apply Z.div_pos; lia.
    - unfold array_size. rewrite (no_block_size _ H). destruct (negb _); [lia|]. apply Z.div_pos; lia.
  Qed.
  Lemma iterate_array p : exists l, (forall l', iterates sz (range_array sz s p) l' <-> l' = l) /\ Z.of_nat (length l) = array_size sz s p /\
    (forall i a, l !! i = Some a <-> (i < length l)%nat /\ a = p + Z.of_nat i * sz) /\
    range_size sz (range_array sz s p) = Ret (array_size sz s p) /\ range_empty sz (range_array sz s p) = Ret (bool_decide (l = [])) /\
    range_array sz s p = range_pair (array_begin p) (array_end sz s p).
  Proof using All.
    pose proof (array_size_nonneg p) as H0. set (n := array_size sz s p) in *. assert (L : length (addresses p (Z.to_nat n)) = Z.to_nat n) by (unfold addresses; rewrite fmap_length, seq_length; reflexivity).
    exists (addresses p (Z.to_nat n)). split; [|split; [|split; [|split; [|split]]]].
    - intros l'. apply iterates_n. exact H0.
    - rewrite L. lia.
    - intros i a. rewrite addresses_lookup, L. reflexivity.
    - apply size_n.
    - unfold range_empty, range_array. rewrite size_n. cbn [obind]. f_equal. fold n. destruct (Z.eqb_spec n 0) as [E|E].
      + rewrite E. reflexivity.
      + symmetry. apply bool_decide_eq_false_2. intros En. rewrite En in L. cbn in L. lia.
    - reflexivity.
  Qed.
  Lemma iterate_covers p m l : (p, m) ∈ heap s -> m mod sz = 0 -> iterates sz (range_array sz s p) l ->
    forall x, p <= x < p + m <-> exists i a, l !! i = Some a /\ a <= x < a + sz.
  Proof using All.
    intros H Hd Hi x. destruct (block_size _ _ H) as [E Hp]. destruct (iterate_array p) as (l0 & Hl & Hn & Hk & _). apply Hl in Hi as ->.
    assert (En : array_size sz s p * sz = m) by (unfold array_size; rewrite E, Hd; cbn [negb Z.eqb]; pose proof (Z.div_mod m sz ltac:(lia)); lia). rewrite <- En, <- Hn. split.
    - intros Hx. exists (Z.to_nat ((x - p) / sz)), (p + (x - p) / sz * sz). pose proof (Z.div_mod (x - p) sz ltac:(lia)). pose proof (Z.mod_pos_bound (x - p) sz Hsz). assert (0 <= (x - p) / sz) by (apply Z.div_pos; lia).
      rewrite Hk, Z2Nat.id by lia. split; [split; [|reflexivity]|lia]. assert ((x - p) / sz < Z.of_nat (length l0)) by (apply Z.div_lt_upper_bound; lia). lia.
    - intros (i & a & Ha & Hx). apply Hk in Ha as [Hlt ->]. nia.
  Qed.
  Lemma iterate_nothing p l : (forall m, (p, m) ∈ heap s -> m mod sz <> 0) -> iterates sz (range_array sz s p) l -> l = [].
  Proof using All.
    intros H Hi. destruct (iterate_array p) as (l0 & Hl & Hn & _). apply Hl in Hi as ->. enough (En : array_size sz s p = 0) by (rewrite En in Hn; destruct l0; [reflexivity|discriminate]).
    unfold array_size. destruct (decide (p ∈ (heap s).*1)) as [Hin|Hin].
    - apply elem_of_list_fmap in Hin as ([p' m] & Ep & Hin). cbn [fst] in Ep. subst p'. destruct (block_size _ _ Hin) as [-> _]. specialize (H m Hin). apply Z.eqb_neq in H. rewrite H. reflexivity.
    - rewrite (no_block_size _ Hin). rewrite Z.mod_0_l, Z.div_0_l by lia. reflexivity.
  Qed.
  Lemma iterate_safe p l a : iterates sz (range_array sz s p) l -> a ∈ l -> in_block (heap s) a sz = true.
  Proof using All.
    intros Hi Ha. destruct (decide (p ∈ (heap s).*1)) as [Hin|Hin].
    - apply elem_of_list_fmap in Hin as ([p' m] & Ep & Hin). cbn [fst] in Ep. subst p'. destruct (decide (m mod sz = 0)) as [Hd|Hd].
      + apply elem_of_list_lookup in Ha as [i Ha]. assert (p <= a < p + m) by (eapply (iterate_covers p m l Hin Hd Hi); exists i, a; split; [exact Ha|lia]).
        assert (p <= a + sz - 1 < p + m) by (eapply (iterate_covers p m l Hin Hd Hi); exists i, a; split; [exact Ha|lia]).
        unfold in_block. apply existsb_exists. exists (p, m). split; [apply elem_of_list_In; exact Hin|]. apply andb_true_iff. split; apply Z.leb_le; lia.
      + assert (Hl : l = []); [|subst l; inversion Ha]. apply (iterate_nothing p l); [|exact Hi]. intros m' Hin'. destruct (block_size _ _ Hin) as [E1 _]. destruct (block_size _ _ Hin') as [E2 _]. congruence.
    - assert (Hl : l = []); [|subst l; inversion Ha]. apply (iterate_nothing p l); [|exact Hi]. intros m Hm'. exfalso. apply Hin. apply elem_of_list_fmap. exists (p, m). auto.
  Qed.
End range_proofs.
Lemma transform_yields {B} sz (r : range) (f : Z -> B) l : yields sz (transform_range r f) l <-> exists as_, iterates sz r as_ /\ length l = length as_ /\ forall i a, as_ !! i = Some a -> l !! i = Some (f a).
Proof.
  unfold yields. cbn [transform_range tr_range tr_fun]. split; intros (as_ & Hi & H); exists as_; split; try exact Hi.
  - subst l. split; [apply fmap_length|]. intros i a Ha. rewrite list_lookup_fmap, Ha. reflexivity.
  - destruct H as [HL H]. apply list_eq. intros i. rewrite list_lookup_fmap. destruct (as_ !! i) as [a|] eqn:E; [exact (H i a E)|]. cbn. apply lookup_ge_None. apply lookup_ge_None in E. lia.
Qed.
