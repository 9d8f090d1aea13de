From Verif Require Import Base Conc BitModel BitSpec BitProofs AlgoModel AlgoProofs BitsetModel BitsetSpec BitsetProofs MutexModel MutexSpec.

Section proofs.
  Context (bpb : Z).
  Hypothesis Hpow : is_pow2 64 bpb.
  Hypothesis Hsmall : bpb <= 64.

  Notation bits := (bits_of bpb).

  Lemma lock_state_bits b : lock_state bpb (bs_blocks b) (bs_size b) = bits b.
  Proof. reflexivity. Qed.

  Lemma bits_get b n : wf bpb b -> 0 <= n < bs_size b -> exists x, bits b !! Z.to_nat n = Some x.
  Proof. intros Hw Hn. eexists. apply bits_lookup; lia. Qed.

  Lemma try_lock_spec b n : wf bpb b -> 0 <= n < bs_size b ->
    exists b' x, bits b !! Z.to_nat n = Some x /\ m_try_lock bpb b n = Ret (b', negb x) /\ wf bpb b' /\
      bits b' = <[Z.to_nat n := true]> (bits b) /\ bs_size b' = bs_size b.
  Proof.
    intros Hw Hn. pose proof (ref_assign_spec bpb Hpow Hsmall b n true Hw) as H.
    unfold spec_update in H. rewrite idx_bits in H by exact Hw.
    unfold m_try_lock. replace ((0 <=? n) && (n <? bs_size b)) with true in * by lia.
    destruct (bits_get b n Hw Hn) as [x Hx]. rewrite Hx in H.
    destruct H as (b' & o & E & Ho & H1 & H2 & H3). injection Ho as <-. rewrite E. cbn [obind]. eauto 8.
  Qed.
  Lemma try_lock_ub b n : ~ (0 <= n < bs_size b) -> m_try_lock bpb b n = UB.
  Proof. intros H. unfold m_try_lock. replace ((0 <=? n) && (n <? bs_size b)) with false by lia. reflexivity. Qed.
  Lemma unlock_spec b n : wf bpb b -> 0 <= n < bs_size b ->
    exists b', m_unlock bpb b n = Ret b' /\ wf bpb b' /\ bits b' = <[Z.to_nat n := false]> (bits b) /\ bs_size b' = bs_size b.
  Proof.
    intros Hw Hn. pose proof (ref_assign_spec bpb Hpow Hsmall b n false Hw) as H.
    unfold spec_update in H. rewrite idx_bits in H by exact Hw.
    unfold m_unlock. replace ((0 <=? n) && (n <? bs_size b)) with true in * by lia.
    destruct (bits_get b n Hw Hn) as [x Hx]. rewrite Hx in H.
    destruct H as (b' & o & E & Ho & H1 & H2 & H3). rewrite E. cbn [obind]. eauto 8.
  Qed.
  Lemma unlock_ub b n : ~ (0 <= n < bs_size b) -> m_unlock bpb b n = UB.
  Proof. intros H. unfold m_unlock. replace ((0 <=? n) && (n <? bs_size b)) with false by lia. reflexivity. Qed.
  Lemma locked_spec b n : wf bpb b -> 0 <= n < bs_size b -> exists x, bits b !! Z.to_nat n = Some x /\ m_locked bpb b n = Ret x.
  Proof.
    intros Hw Hn. pose proof (ref_get_spec bpb Hpow Hsmall b n Hw) as H.
    unfold spec_update in H. rewrite idx_bits in H by exact Hw.
    unfold m_locked. replace ((0 <=? n) && (n <? bs_size b)) with true in * by lia.
    destruct (bits_get b n Hw Hn) as [x Hx]. rewrite Hx in H.
    destruct H as (o & E & Ho & _). injection Ho as <-. eauto.
  Qed.

  (** states that some history of bitset operations (hence of locks) produces *)
  Lemma run_wf size ops b0 b rs : 0 <= size < 2 ^ 31 -> bitset_create bpb size = Ret b0 -> bitset_run bpb b0 ops = Ret (b, rs) ->
    wf bpb b /\ bs_size b = size.
  Proof.
    intros Hs Hc Hr. destruct (create_spec bpb Hpow Hsmall size) as (b1 & E & Hw & Hb & Hsz); [lia|].
    rewrite Hc in E. injection E as <-.
    pose proof (run_refines bpb Hpow Hsmall ops b0 Hw ltac:(lia)) as H.
    destruct (spec_run (bits b0) ops) as [[l rs']| |]; [|rewrite H in Hr; discriminate|contradiction].
    destruct H as (b' & E' & Hw' & _). rewrite Hr in E'. injection E' as <- <-.
    rewrite (run_size bpb Hpow Hsmall _ _ _ _ Hr Hw) by lia. auto.
  Qed.

  (** ** several locks *)
  Lemma detail_try_lock_spec ns : forall i b, 0 <= i -> wf bpb b -> (forall n, n ∈ ns -> 0 <= n < bs_size b) ->
    exists b' r, detail_try_lock bpb i b ns = Ret (b', r) /\ wf bpb b' /\ bs_size b' = bs_size b /\
    ((r = -1 /\ NoDup ns /\ (forall n, n ∈ ns -> bits b !! Z.to_nat n = Some false) /\ bits b' = hold_all (bits b) ns) \/
     (exists k, r = i + Z.of_nat k /\ blocked_at (bits b) ns k /\ (forall j, (j < k)%nat -> ~ blocked_at (bits b) ns j) /\ bits b' = bits b)).
  Proof.
    induction ns as [|n ns IH]; intros i b Hi Hw Hr.
    - cbn. eexists b, _. split; [reflexivity|]. split; [exact Hw|]. split; [reflexivity|]. left.
      split; [reflexivity|]. split; [constructor|]. split; [intros n Hn; inversion Hn|reflexivity].
    - assert (Hn : 0 <= n < bs_size b) by (apply Hr; left).
      destruct (try_lock_spec b n Hw Hn) as (b1 & x & Hx & E & Hw1 & Hb1 & Hs1). 
      assert (Hlen : (Z.to_nat n < length (bits b))%nat) by (eapply lookup_lt_Some; exact Hx).
      cbn [detail_try_lock]. rewrite E. cbn [obind]. rewrite negb_involutive. destruct x.
      + exists b1, i. split; [reflexivity|]. split; [exact Hw1|]. split; [exact Hs1|]. right. exists 0%nat.
        split; [lia|]. split; [exists n; split; [reflexivity|auto]|]. split; [lia|]. rewrite Hb1. apply list_insert_id. exact Hx.
      + assert (Hr' : forall m, m ∈ ns -> 0 <= m < bs_size b1) by (intros m Hm; rewrite Hs1; apply Hr; right; exact Hm).
        destruct (IH (i + 1) b1 ltac:(lia) Hw1 Hr') as (b2 & r & E2 & Hw2 & Hs2 & Hcase).
        replace (match ns with [] => Ret (b1, -1) | _ => _ end) with
          (let! (b2, result) := detail_try_lock bpb (i + 1) b1 ns in
           if result =? -1 then Ret (b2, result) else let! b3 := m_unlock bpb b2 n in Ret (b3, result)).
        2: { destruct ns as [|m ns']; [|reflexivity]. reflexivity. }
        rewrite E2. cbn [obind].
        destruct Hcase as [(-> & Hnd & Hall & Hbits)|(k & -> & Hblk & Hmin & Hbits)].
        * cbn. exists b2, (-1). split; [reflexivity|]. split; [exact Hw2|]. split; [lia|]. left. split; [reflexivity|].
          assert (Hall' : forall m, m ∈ ns -> m <> n /\ bits b !! Z.to_nat m = Some false).
          { intros m Hm. specialize (Hall m Hm). rewrite Hb1 in Hall. destruct (decide (m = n)) as [->|Hne].
            - rewrite list_lookup_insert in Hall by exact Hlen. discriminate.
            - split; [exact Hne|]. rewrite list_lookup_insert_ne in Hall; [exact Hall|].
              specialize (Hr' m Hm). lia. }
          split; [constructor; [intros Hin; apply (proj1 (Hall' n Hin)); reflexivity|exact Hnd]|].
          split.
          { intros m Hm. apply elem_of_cons in Hm as [->|Hm]; [exact Hx|apply Hall'; exact Hm]. }
          cbn. rewrite <- Hb1. exact Hbits.
        * replace (i + 1 + Z.of_nat k =? -1) with false by lia.
          destruct (unlock_spec b2 n Hw2 ltac:(lia)) as (b3 & E3 & Hw3 & Hb3 & Hs3). rewrite E3. cbn [obind].
          eexists b3, _. split; [reflexivity|]. split; [exact Hw3|]. split; [lia|]. right. exists (S k). split; [lia|].
          split.
          { destruct Hblk as (m & Hm & Hor). exists m. split; [exact Hm|]. rewrite firstn_cons.
            destruct Hor as [Hor|Hor].
            - rewrite Hb1 in Hor. destruct (decide (m = n)) as [->|Hne]; [right; left|].
              left. rewrite list_lookup_insert_ne in Hor; [exact Hor|].
              specialize (Hr' m (elem_of_list_lookup_2 _ _ _ Hm)). lia.
            - right. right. exact Hor. }
          split.
          { intros [|j] Hj (m & Hm & Hor).
            - cbn in Hm. injection Hm as <-. destruct Hor as [Hor|Hor]; [congruence|]. inversion Hor.
            - apply (Hmin j ltac:(lia)). exists m. split; [exact Hm|]. rewrite firstn_cons in Hor.
              rewrite Hb1. destruct (decide (m = n)) as [->|Hne].
              + left. apply list_lookup_insert. exact Hlen.
              + destruct Hor as [Hor|Hor].
                * left. rewrite list_lookup_insert_ne; [exact Hor|]. cbn in Hm.
                  specialize (Hr' m (elem_of_list_lookup_2 _ _ _ Hm)). lia.
                * right. apply elem_of_cons in Hor as [?|?]; [contradiction|assumption]. }
          rewrite Hb3, Hbits, Hb1, list_insert_insert. apply list_insert_id. exact Hx.
  Qed.

  Lemma try_lock_all_spec size ops b0 b rs ns : 0 <= size < 2 ^ 31 ->
    bitset_create bpb size = Ret b0 -> bitset_run bpb b0 ops = Ret (b, rs) ->
    (forall n, n ∈ ns -> 0 <= n < size) ->
    let L := lock_state bpb (bs_blocks b) size in
    exists b' r, try_lock_all bpb b ns = Ret (b', r) /\
    let L' := lock_state bpb (bs_blocks b') size in
    ((r = -1 /\ NoDup ns /\ (forall n, n ∈ ns -> L !! Z.to_nat n = Some false) /\ L' = hold_all L ns) \/
     (exists k, r = Z.of_nat k /\ blocked_at L ns k /\ (forall j, (j < k)%nat -> ~ blocked_at L ns j) /\ L' = L)).
  Proof.
    intros Hs Hc Hr Hns L. destruct (run_wf _ _ _ _ _ Hs Hc Hr) as [Hw Hsz].
    destruct (detail_try_lock_spec ns 0 b) as (b' & r & E & Hw' & Hs' & Hcase); [lia|exact Hw|rewrite Hsz; exact Hns|].
    exists b', r. split; [exact E|]. cbn zeta. subst L. rewrite <- Hsz. 
    replace (lock_state bpb (bs_blocks b') (bs_size b)) with (bits b') by (rewrite <- Hs'; reflexivity).
    rewrite lock_state_bits. exact Hcase.
  Qed.

  (** ** valid *)
  Lemma valid_spec size ops b0 b rs : 0 <= size < 2 ^ 31 ->
    bitset_create bpb size = Ret b0 -> bitset_run bpb b0 ops = Ret (b, rs) ->
    exists v, m_valid bpb b = Ret v /\
      (v = true <-> forall n, 0 <= n < size -> m_locked bpb b n = Ret false).
  Proof.
    intros Hs Hc Hr. destruct (run_wf _ _ _ _ _ Hs Hc Hr) as [Hw Hsz].
    unfold m_valid. rewrite count_spec by (try assumption; lia). cbn [obind]. eexists. split; [reflexivity|].
    rewrite Z.eqb_eq. unfold count_true. split.
    - intros H n Hn. destruct (locked_spec b n Hw ltac:(lia)) as (x & Hx & ->). f_equal.
      destruct x; [|reflexivity]. exfalso.
      assert (Hin : true ∈ filter (fun b => b = true) (bits b)).
      { apply elem_of_list_filter. split; [reflexivity|]. eapply elem_of_list_lookup_2; exact Hx. }
      destruct (filter _ _); [inversion Hin|discriminate].
    - intros H. destruct (filter (fun b => b = true) (bits b)) as [|a l] eqn:Ef; [reflexivity|]. exfalso.
      assert (Hin : a ∈ filter (fun b => b = true) (bits b)) by (rewrite Ef; left).
      apply elem_of_list_filter in Hin as [-> Hin]. apply elem_of_list_lookup in Hin as [i Hi].
      pose proof (lookup_lt_Some _ _ _ Hi) as Hlt. pose proof (bits_length bpb b). 
      destruct (locked_spec b (Z.of_nat i) Hw ltac:(destruct Hw as ((? & ?) & _); lia)) as (x & Hx & E).
      rewrite Nat2Z.id, Hi in Hx. injection Hx as <-. rewrite H in E; [discriminate|].
      destruct Hw as ((? & ?) & _). lia.
  Qed.

  Lemma lock_unlock_restores size ops b0 b rs n : 0 <= size < 2 ^ 31 ->
    bitset_create bpb size = Ret b0 -> bitset_run bpb b0 ops = Ret (b, rs) -> 0 <= n < size ->
    m_locked bpb b n = Ret false ->
    exists b1 b2, m_try_lock bpb b n = Ret (b1, true) /\ m_unlock bpb b1 n = Ret b2 /\
      lock_state bpb (bs_blocks b2) size = lock_state bpb (bs_blocks b) size /\ m_valid bpb b2 = m_valid bpb b /\
      m_locked bpb b1 n = Ret true /\ m_valid bpb b1 = Ret false.
  Proof.
    intros Hs Hc Hr Hn Hl. destruct (run_wf _ _ _ _ _ Hs Hc Hr) as [Hw Hsz].
    destruct (locked_spec b n Hw ltac:(lia)) as (x & Hx & E). rewrite Hl in E. injection E as <-.
    destruct (try_lock_spec b n Hw ltac:(lia)) as (b1 & x & Hx1 & E1 & Hw1 & Hb1 & Hs1).
    rewrite Hx in Hx1. injection Hx1 as <-.
    destruct (unlock_spec b1 n Hw1 ltac:(lia)) as (b2 & E2 & Hw2 & Hb2 & Hs2).
    exists b1, b2. split; [exact E1|]. split; [exact E2|].
    assert (Hbits : bits b2 = bits b).
    { rewrite Hb2, Hb1, list_insert_insert. apply list_insert_id. exact Hx. }
    assert (Hlt : (Z.to_nat n < length (bits b))%nat) by (eapply lookup_lt_Some; exact Hx).
    split; [|split; [|split]].
    - rewrite <- Hsz. rewrite lock_state_bits. rewrite <- Hbits, <- Hs1, <- Hs2. reflexivity.
    - unfold m_valid. rewrite !count_spec by (try assumption; lia). rewrite Hbits. reflexivity.
    - destruct (locked_spec b1 n Hw1 ltac:(lia)) as (y & Hy & E3). rewrite E3. f_equal.
      rewrite Hb1, list_lookup_insert in Hy by exact Hlt. congruence.
    - unfold m_valid. rewrite count_spec by (try assumption; lia). cbn [obind]. f_equal. apply Z.eqb_neq.
      unfold count_true. assert (Hin : true ∈ filter (fun b => b = true) (bits b1)).
      { apply elem_of_list_filter. split; [reflexivity|]. eapply (elem_of_list_lookup_2 _ (Z.to_nat n)).
        rewrite Hb1. apply list_lookup_insert. exact Hlt. }
      destruct (filter _ _); [inversion Hin|cbn; lia].
  Qed.

  (** ** concurrency *)
  Lemma mbal_app n l1 l2 : mbal n (l1 ++ l2) = mbal n l1 + mbal n l2.
  Proof. apply sumZ_app. Qed.
  Lemma mbal_trues n ns : mbal n ((fun m => ETry m true) <$> ns) = sumZ (fun m => if m =? n then 1 else 0) ns.
  Proof. induction ns as [|m ns IH]; [reflexivity|]. cbn. fold (mbal n ((fun m => ETry m true) <$> ns)). rewrite IH. reflexivity. Qed.
  Lemma mbal_unlocks n ns : mbal n (EUnlock <$> ns) = - sumZ (fun m => if m =? n then 1 else 0) ns.
  Proof. induction ns as [|m ns IH]; [reflexivity|]. cbn. fold (mbal n (EUnlock <$> ns)). rewrite IH. destruct (m =? n); lia. Qed.
  Lemma cnt_nonneg n ns : 0 <= sumZ (fun m : Z => if m =? n then 1 else 0) ns.
  Proof. apply sumZ_nonneg. intros m _. destruct (m =? n); lia. Qed.
  Lemma cnt_reverse n ns : sumZ (fun m : Z => if m =? n then 1 else 0) (reverse ns) = sumZ (fun m : Z => if m =? n then 1 else 0) ns.
  Proof. induction ns as [|m ns IH]; [reflexivity|]. rewrite reverse_cons, sumZ_app, IH. cbn. lia. Qed.

  Local Arguments mbal : simpl never.
  Lemma mbal_single n e : mbal n [e] = mbal1 n e.
  Proof. unfold mbal. cbn. lia. Qed.

  (** the log of the current multi-lock call *)
  Definition locking_log (locks : list Z) (i : nat) : list mevent := (fun m => ETry m true) <$> take i locks.
  Definition rollback_log (locks : list Z) (k i : nat) (n : Z) : list mevent :=
    locking_log locks k ++ [ETry n false] ++ (EUnlock <$> reverse (drop i (take k locks))).

  Definition calls_ok (log : list mevent) : Prop :=
    forall l1 ns l2 r l3, log = l1 ++ EStart ns :: l2 ++ EEnd ns r :: l3 -> no_calls l2 ->
      (r = -1 /\ l2 = ((fun m => ETry m true) <$> ns)) \/
      (exists k n, r = Z.of_nat k /\ ns !! k = Some n /\
         l2 = ((fun m => ETry m true) <$> take k ns) ++ [ETry n false] ++ (EUnlock <$> reverse (take k ns))).

  Definition tinv (t : mthread) : Prop :=
    calls_ok (m_log t) /\
    match m_pc t with
    | MIdle => forall n, 0 <= mbal n (m_log t)
    | MLocking locks i => (i <= length locks)%nat /\ exists l1, m_log t = l1 ++ EStart locks :: locking_log locks i /\ forall n, 0 <= mbal n l1
    | MRollback locks i r => exists l1 k n, r = Z.of_nat k /\ (i <= k)%nat /\ locks !! k = Some n /\
        m_log t = l1 ++ EStart locks :: rollback_log locks k i n /\ forall n, 0 <= mbal n l1
    end.

  Lemma locking_log_no_calls locks i : no_calls (locking_log locks i).
  Proof. intros e He. apply elem_of_list_fmap in He as (m & -> & _). split; intros; discriminate. Qed.
  Lemma rollback_log_no_calls locks k i n : no_calls (rollback_log locks k i n).
  Proof.
    intros e He. unfold rollback_log in He. apply elem_of_app in He as [He|He]; [apply (locking_log_no_calls _ _ _ He)|].
    apply elem_of_app in He as [He|He].
    - apply elem_of_list_singleton in He as ->. split; intros; discriminate.
    - apply elem_of_list_fmap in He as (m & -> & _). split; intros; discriminate.
  Qed.

  Lemma start_unique l1 ns l2 : forall l1' ns' l2', no_calls l2 -> no_calls l2' ->
    l1 ++ EStart ns :: l2 = l1' ++ EStart ns' :: l2' -> l1 = l1' /\ ns = ns' /\ l2 = l2'.
  Proof.
    induction l1 as [|e l1 IH]; intros [|e' l1'] ns' l2' H H' E; cbn in E.
    - injection E as <- <-. auto.
    - injection E as <- ->. exfalso. destruct (H (EStart ns')) as [Hc _].
      { apply elem_of_app. right. left. } apply (Hc ns'). reflexivity.
    - injection E as -> <-. exfalso. destruct (H' (EStart ns)) as [Hc _].
      { apply elem_of_app. right. left. } apply (Hc ns). reflexivity.
    - injection E as <- E. destruct (IH _ _ _ H H' E) as (-> & -> & ->). auto.
  Qed.

  (** appending an event that is not EEnd keeps calls_ok; appending EEnd needs the check *)
  Lemma calls_ok_snoc log e : calls_ok log -> (forall ns r, e <> EEnd ns r) -> calls_ok (log ++ [e]).
  Proof.
    intros H He l1 ns l2 r l3 E Hn. destruct l3 as [|x l3' _] using rev_ind.
    - change (l1 ++ EStart ns :: l2 ++ [EEnd ns r]) with (l1 ++ (EStart ns :: l2) ++ [EEnd ns r]) in E.
      rewrite app_assoc in E. apply app_inj_tail in E as [_ ->]. exfalso. eapply He. reflexivity.
    - apply (H l1 ns l2 r l3'); [|exact Hn].
      rewrite app_comm_cons, app_assoc, app_comm_cons, app_assoc in E. apply app_inj_tail in E as [-> _].
      rewrite <- app_assoc. reflexivity.
  Qed.
  Lemma calls_ok_end log l1 ns l2 r : calls_ok log -> log = l1 ++ EStart ns :: l2 -> no_calls l2 ->
    ((r = -1 /\ l2 = ((fun m => ETry m true) <$> ns)) \/
      (exists k n, r = Z.of_nat k /\ ns !! k = Some n /\
         l2 = ((fun m => ETry m true) <$> take k ns) ++ [ETry n false] ++ (EUnlock <$> reverse (take k ns)))) ->
    calls_ok (log ++ [EEnd ns r]).
  Proof.
    intros H El Hn2 Hcase l1' ns' l2' r' l3 E Hn. destruct l3 as [|x l3' _] using rev_ind.
    - change (l1' ++ EStart ns' :: l2' ++ [EEnd ns' r']) with (l1' ++ (EStart ns' :: l2') ++ [EEnd ns' r']) in E.
      rewrite app_assoc in E. apply app_inj_tail in E as [E E']. injection E' as <- <-. rewrite El in E.
      destruct (start_unique _ _ _ _ _ _ Hn2 Hn E) as (_ & _ & <-). exact Hcase.
    - apply (H l1' ns' l2' r' l3'); [|exact Hn].
      rewrite app_comm_cons, app_assoc, app_comm_cons, app_assoc in E. apply app_inj_tail in E as [-> _].
      rewrite <- app_assoc. reflexivity.
  Qed.

  Lemma mbal_locking n locks i : mbal n (locking_log locks i) = sumZ (fun m => if m =? n then 1 else 0) (take i locks).
  Proof. apply mbal_trues. Qed.
  Lemma mbal_rollback n locks k i m : (i <= k)%nat -> mbal n (rollback_log locks k i m) = sumZ (fun m => if m =? n then 1 else 0) (take i locks).
  Proof.
    intros Hik. unfold rollback_log. rewrite !mbal_app, mbal_locking, mbal_unlocks, cnt_reverse.
    rewrite <- (take_drop i (take k locks)) at 1. rewrite sumZ_app, take_take, Nat.min_l by lia. rewrite mbal_single. cbn. lia.
  Qed.
  Lemma mbal_start n l1 ns l2 : mbal n (l1 ++ EStart ns :: l2) = mbal n l1 + mbal n l2.
  Proof. rewrite mbal_app. reflexivity. Qed.

  Lemma tinv_bal t n : tinv t -> 0 <= mbal n (m_log t).
  Proof.
    intros (_ & H). destruct (m_pc t) as [|locks i|locks i r].
    - auto.
    - destruct H as (_ & l1 & -> & H). rewrite mbal_start, mbal_locking. specialize (H n). pose proof (cnt_nonneg n (take i locks)). lia.
    - destruct H as (l1 & k & m & _ & Hik & _ & -> & H). rewrite mbal_start, mbal_rollback by exact Hik. specialize (H n).
      pose proof (cnt_nonneg n (take i locks)). lia.
  Qed.

  Lemma rollback_step locks k i n m : (S i <= k)%nat -> locks !! i = Some m ->
    rollback_log locks k (S i) n ++ [EUnlock m] = rollback_log locks k i n.
  Proof.
    intros Hik Hm. unfold rollback_log. rewrite <- !app_assoc. do 2 f_equal.
    assert (Hlk : take k locks !! i = Some m) by (rewrite lookup_take by lia; exact Hm).
    rewrite (drop_S _ _ _ Hlk), reverse_cons, fmap_app. reflexivity.
  Qed.

  (** what one step of a thread does to its log, given the lock array it sees *)
  Lemma step_effect tid b t b' t' : wf bpb b -> tinv t -> (forall n, 0 < mbal n (m_log t) -> 0 <= n < bs_size b /\ bits b !! Z.to_nat n = Some true) ->
    mutex_step bpb tid b t = Some (b', t') ->
    wf bpb b' /\ bs_size b' = bs_size b /\ tinv t' /\
    (forall n, 0 <= n < bs_size b -> exists x x', bits b !! Z.to_nat n = Some x /\ bits b' !! Z.to_nat n = Some x' /\
       Z.b2z x' - Z.b2z x = mbal n (m_log t') - mbal n (m_log t)) /\
    (forall n, ~ (0 <= n < bs_size b) -> mbal n (m_log t') = mbal n (m_log t)).
  Proof.
    intros Hw Ht Hheld Hst.
    assert (Hsame : forall e, (forall n, mbal1 n e = 0) -> m_log t' = m_log t ++ [e] -> b' = b ->
       wf bpb b' /\ bs_size b' = bs_size b /\
       (forall n, 0 <= n < bs_size b -> exists x x', bits b !! Z.to_nat n = Some x /\ bits b' !! Z.to_nat n = Some x' /\
         Z.b2z x' - Z.b2z x = mbal n (m_log t') - mbal n (m_log t)) /\
       (forall n, ~ (0 <= n < bs_size b) -> mbal n (m_log t') = mbal n (m_log t))).
    { intros e He Hl ->. split; [exact Hw|]. split; [reflexivity|].
      assert (Hb : forall n, mbal n (m_log t') = mbal n (m_log t)).
      { intros n. rewrite Hl, mbal_app. unfold mbal at 2. cbn [sumZ]. rewrite He. lia. }
      split; [|intros; apply Hb]. intros n Hn. destruct (bits_get b n Hw Hn) as [x Hx]. exists x, x. rewrite Hb. split; [exact Hx|]. split; [exact Hx|lia]. }
    assert (Htry : forall n ok, m_try_lock bpb b n = Ret (b', ok) -> m_log t' = m_log t ++ [ETry n ok] ->
       wf bpb b' /\ bs_size b' = bs_size b /\
       (forall n, 0 <= n < bs_size b -> exists x x', bits b !! Z.to_nat n = Some x /\ bits b' !! Z.to_nat n = Some x' /\
         Z.b2z x' - Z.b2z x = mbal n (m_log t') - mbal n (m_log t)) /\
       (forall n, ~ (0 <= n < bs_size b) -> mbal n (m_log t') = mbal n (m_log t))).
    { intros n ok E Hl. destruct (decide (0 <= n < bs_size b)) as [Hn|Hn]; [|rewrite try_lock_ub in E by exact Hn; discriminate].
      destruct (try_lock_spec b n Hw Hn) as (b1 & x & Hx & E1 & Hw1 & Hb1 & Hs1). rewrite E in E1. injection E1 as <- ->.
      assert (Hlt : (Z.to_nat n < length (bits b))%nat) by (eapply lookup_lt_Some; exact Hx).
      split; [exact Hw1|]. split; [exact Hs1|].
      assert (Hb : forall m, mbal m (m_log t') - mbal m (m_log t) = if n =? m then Z.b2z (negb x) else 0).
      { intros m. rewrite Hl, mbal_app. unfold mbal at 2. cbn [sumZ mbal1]. destruct x, (n =? m); cbn; lia. }
      split.
      - intros m Hm. destruct (bits_get b m Hw Hm) as [y Hy]. rewrite Hb, Hb1. destruct (Z.eqb_spec n m) as [->|Hne].
        + rewrite Hx in Hy. injection Hy as <-. exists x, true. split; [exact Hx|]. split; [apply list_lookup_insert; exact Hlt|]. destruct x; reflexivity.
        + exists y, y. split; [exact Hy|]. split; [rewrite list_lookup_insert_ne by lia; exact Hy|lia].
      - intros m Hm. specialize (Hb m). replace (n =? m) with false in Hb by lia. lia. }
    assert (Hunl : forall n, m_unlock bpb b n = Ret b' -> 0 < mbal n (m_log t) -> m_log t' = m_log t ++ [EUnlock n] ->
       wf bpb b' /\ bs_size b' = bs_size b /\
       (forall n, 0 <= n < bs_size b -> exists x x', bits b !! Z.to_nat n = Some x /\ bits b' !! Z.to_nat n = Some x' /\
         Z.b2z x' - Z.b2z x = mbal n (m_log t') - mbal n (m_log t)) /\
       (forall n, ~ (0 <= n < bs_size b) -> mbal n (m_log t') = mbal n (m_log t))).
    { intros n E Hpos Hl. destruct (Hheld n Hpos) as [Hn Htrue].
      destruct (unlock_spec b n Hw Hn) as (b1 & E1 & Hw1 & Hb1 & Hs1). rewrite E in E1. injection E1 as <-.
      assert (Hlt : (Z.to_nat n < length (bits b))%nat) by (eapply lookup_lt_Some; exact Htrue).
      split; [exact Hw1|]. split; [exact Hs1|].
      assert (Hb : forall m, mbal m (m_log t') - mbal m (m_log t) = if n =? m then -1 else 0).
      { intros m. rewrite Hl, mbal_app. unfold mbal at 2. cbn [sumZ mbal1]. destruct (n =? m); cbn; lia. }
      split.
      - intros m Hm. destruct (bits_get b m Hw Hm) as [y Hy]. rewrite Hb, Hb1. destruct (Z.eqb_spec n m) as [->|Hne].
        + exists true, false. split; [exact Htrue|]. split; [apply list_lookup_insert; exact Hlt|]. reflexivity.
        + exists y, y. split; [exact Hy|]. split; [rewrite list_lookup_insert_ne by lia; exact Hy|lia].
      - intros m Hm. specialize (Hb m). replace (n =? m) with false in Hb by lia. lia. }
    unfold mutex_step in Hst. pose proof Ht as (Hcalls & Hpc).
    destruct (m_pc t) as [|locks i|locks i r] eqn:Epc.
    - destruct (m_prog t) as [|[n|n|locks] rest] eqn:Epr; [discriminate| | |].
      + destruct (m_try_lock bpb b n) as [[b1 ok]| |] eqn:E; [|discriminate|discriminate].
        injection Hst as <- <-. destruct (Htry n ok E eq_refl) as (H1 & H2 & H3 & H4).
        split; [exact H1|]. split; [exact H2|]. split; [|split; [exact H3|exact H4]].
        split; [apply calls_ok_snoc; [exact Hcalls|discriminate]|]. cbn. intros m. rewrite mbal_app. specialize (Hpc m).
        rewrite mbal_single; cbn. destruct ok, (n =? m); lia.
      + destruct (0 <? mbal n (m_log t)) eqn:Ep.
        * destruct (m_unlock bpb b n) as [b1| |] eqn:E; [|discriminate|discriminate].
          injection Hst as <- <-. destruct (Hunl n E ltac:(lia) eq_refl) as (H1 & H2 & H3 & H4).
          split; [exact H1|]. split; [exact H2|]. split; [|split; [exact H3|exact H4]].
          split; [apply calls_ok_snoc; [exact Hcalls|discriminate]|]. cbn. intros m. rewrite mbal_app. specialize (Hpc m).
          rewrite mbal_single; cbn. destruct (Z.eqb_spec n m) as [->|?]; lia.
        * injection Hst as <- <-. split; [exact Hw|]. split; [reflexivity|]. split; [split; [exact Hcalls|exact Hpc]|].
          cbn. split; [|auto]. intros m Hm. destruct (bits_get b m Hw Hm) as [y Hy]. exists y, y. split; [exact Hy|]. split; [exact Hy|lia].
      + injection Hst as <- <-. destruct (Hsame (EStart locks) ltac:(reflexivity) eq_refl eq_refl) as (H1 & H2 & H3 & H4).
        split; [exact H1|]. split; [exact H2|]. split; [|split; [exact H3|exact H4]].
        split; [apply calls_ok_snoc; [exact Hcalls|discriminate]|]. cbn. split; [lia|]. exists (m_log t). split; [reflexivity|exact Hpc].
    - destruct Hpc as (Hi & l1 & El & Hl1). destruct (locks !! i) as [n|] eqn:Eli.
      + destruct (m_try_lock bpb b n) as [[b1 [|]]| |] eqn:E; [| |discriminate|discriminate].
        * injection Hst as <- <-. destruct (Htry n true E eq_refl) as (H1 & H2 & H3 & H4).
          split; [exact H1|]. split; [exact H2|]. split; [|split; [exact H3|exact H4]].
          split; [apply calls_ok_snoc; [exact Hcalls|discriminate]|]. cbn. split; [apply lookup_lt_Some in Eli; lia|].
          exists l1. split; [|exact Hl1]. rewrite El. rewrite <- app_assoc. cbn. do 2 f_equal.
          unfold locking_log. rewrite (take_S_r _ _ _ Eli), fmap_app. reflexivity.
        * injection Hst as <- <-. destruct (Htry n false E eq_refl) as (H1 & H2 & H3 & H4).
          split; [exact H1|]. split; [exact H2|]. split; [|split; [exact H3|exact H4]].
          split; [apply calls_ok_snoc; [exact Hcalls|discriminate]|]. cbn. exists l1, i, n. split; [reflexivity|]. split; [lia|].
          split; [exact Eli|]. split; [|exact Hl1]. rewrite El, <- app_assoc. cbn. do 2 f_equal. unfold rollback_log. f_equal.
          rewrite drop_ge by (rewrite take_length; lia). reflexivity.
      + injection Hst as <- <-. destruct (Hsame (EEnd locks (-1)) ltac:(reflexivity) eq_refl eq_refl) as (H1 & H2 & H3 & H4).
        assert (Hlen : i = length locks) by (apply lookup_ge_None in Eli; lia).
        split; [exact H1|]. split; [exact H2|]. split; [|split; [exact H3|exact H4]].
        split.
        * eapply calls_ok_end; [exact Hcalls|exact El|apply locking_log_no_calls|]. left. split; [reflexivity|].
          unfold locking_log. rewrite take_ge by lia. reflexivity.
        * cbn. intros m. rewrite mbal_app. pose proof (tinv_bal t m Ht). rewrite mbal_single. cbn. lia.
    - destruct Hpc as (l1 & k & n & -> & Hik & Hk & El & Hl1). destruct i as [|j].
      + injection Hst as <- <-. destruct (Hsame (EEnd locks (Z.of_nat k)) ltac:(reflexivity) eq_refl eq_refl) as (H1 & H2 & H3 & H4).
        split; [exact H1|]. split; [exact H2|]. split; [|split; [exact H3|exact H4]].
        split.
        * eapply calls_ok_end; [exact Hcalls|exact El|apply rollback_log_no_calls|]. right. exists k, n. auto.
        * cbn. intros m. rewrite mbal_app. pose proof (tinv_bal t m Ht). rewrite mbal_single. cbn. lia.
      + destruct (locks !! j) as [m|] eqn:Ej; [|discriminate].
        destruct (m_unlock bpb b m) as [b1| |] eqn:E; [|discriminate|discriminate].
        assert (Hpos : 0 < mbal m (m_log t)).
        { rewrite El, mbal_start, mbal_rollback by exact Hik. specialize (Hl1 m). rewrite (take_S_r _ _ _ Ej), sumZ_app.
          cbn. rewrite Z.eqb_refl. pose proof (cnt_nonneg m (take j locks)). lia. }
        injection Hst as <- <-. destruct (Hunl m E Hpos eq_refl) as (H1 & H2 & H3 & H4).
        split; [exact H1|]. split; [exact H2|]. split; [|split; [exact H3|exact H4]].
        split; [apply calls_ok_snoc; [exact Hcalls|discriminate]|]. cbn. exists l1, k, n. split; [reflexivity|]. split; [lia|]. split; [exact Hk|].
        split; [|exact Hl1]. rewrite El, <- app_assoc. cbn. do 2 f_equal. apply rollback_step; [lia|exact Ej].
  Qed.

  Lemma mutex_invariant size progs b0 b ls : 0 <= size < 2 ^ 63 -> mutex_create bpb size = Ret b0 ->
    reach (mutex_step bpb) (mutex_init b0 progs) (b, ls) ->
    wf bpb b /\ bs_size b = size /\ (forall t, t ∈ ls -> tinv t) /\
    (forall n, 0 <= n < size -> exists x, bits b !! Z.to_nat n = Some x /\ sumZ (fun t => mbal n (m_log t)) ls = Z.b2z x) /\
    (forall n t, ~ (0 <= n < size) -> t ∈ ls -> mbal n (m_log t) = 0).
  Proof.
    intros Hs Hc Hr. destruct (create_spec bpb Hpow Hsmall size Hs) as (b1 & E1 & Hw & Hb & Hsz).
    unfold mutex_create in Hc. rewrite Hc in E1. injection E1 as <-.
    refine (invariant (mutex_step bpb) (fun c => wf bpb c.1 /\ bs_size c.1 = size /\ (forall t, t ∈ c.2 -> tinv t) /\
    (forall n, 0 <= n < size -> exists x, bits c.1 !! Z.to_nat n = Some x /\ sumZ (fun t => mbal n (m_log t)) c.2 = Z.b2z x) /\
    (forall n t, ~ (0 <= n < size) -> t ∈ c.2 -> mbal n (m_log t) = 0)) _ (mutex_init b0 progs) (b, ls) _ Hr).
    - clear b ls Hr. intros c c' (I1 & I2 & I3 & I4 & I5) Hstep. destruct Hstep as [b ls i t b' t' Hi Hst].
      cbn [fst snd] in *. assert (Hin : t ∈ ls) by (eapply elem_of_list_lookup_2; exact Hi).
      assert (Hheld : forall n, 0 < mbal n (m_log t) -> 0 <= n < bs_size b /\ bits b !! Z.to_nat n = Some true).
      { intros n Hpos. destruct (decide (0 <= n < size)) as [Hn|Hn]; [|rewrite (I5 n t Hn Hin) in Hpos; lia].
        split; [lia|]. destruct (I4 n Hn) as (x & Hx & Hsum).
        pose proof (sumZ_ge_elem (fun t => mbal n (m_log t)) ls i t) as Hge. cbn in Hge.
        specialize (Hge (fun l Hl => tinv_bal l n (I3 l Hl)) Hi). destruct x; [exact Hx|]. cbn in Hsum. lia. }
      destruct (step_effect i b t b' t' I1 (I3 t Hin) Hheld Hst) as (H1 & H2 & H3 & H4 & H5).
      split; [exact H1|]. split; [lia|].
      assert (Hcases : forall t0, t0 ∈ <[i:=t']> ls -> t0 = t' \/ t0 ∈ ls).
      { intros t0 Ht0. apply elem_of_list_lookup in Ht0 as [j Hj]. destruct (decide (i = j)) as [->|Hne].
        - rewrite list_lookup_insert in Hj by (eapply lookup_lt_Some; eassumption). injection Hj as <-. auto.
        - rewrite list_lookup_insert_ne in Hj by exact Hne. right. eapply elem_of_list_lookup_2; exact Hj. }
      split; [|split].
      + intros t0 Ht0. destruct (Hcases t0 Ht0) as [->|?]; auto.
      + intros n Hn. destruct (I4 n Hn) as (x & Hx & Hsum). destruct (H4 n ltac:(lia)) as (y & y' & Hy & Hy' & Hd).
        rewrite Hx in Hy. injection Hy as <-. exists y'. split; [exact Hy'|]. rewrite (sumZ_insert _ _ _ _ _ Hi). lia.
      + intros n t0 Hn Ht0. destruct (Hcases t0 Ht0) as [->|?]; [|auto]. rewrite H5 by lia. auto.
    - cbn [fst snd mutex_init]. split; [exact Hw|]. split; [exact Hsz|]. split; [|split].
      + intros t Ht. apply elem_of_list_fmap in Ht as (p & -> & _). split; cbn.
        * intros l1 ns l2 r l3 E. destruct l1; discriminate.
        * intros n. unfold mbal. cbn. lia.
      + intros n Hn. exists false. rewrite Hb. split; [apply lookup_replicate_2; lia|].
        apply sumZ_zero. intros t Ht. apply elem_of_list_fmap in Ht as (p & -> & _). reflexivity.
      + intros n t _ Ht. apply elem_of_list_fmap in Ht as (p & -> & _). reflexivity.
  Qed.

  Lemma mutual_exclusion size progs b0 b ls : 0 <= size < 2 ^ 63 -> mutex_create bpb size = Ret b0 ->
    reach (mutex_step bpb) (mutex_init b0 progs) (b, ls) ->
    (forall t n, t ∈ ls -> 0 <= mbal n (m_log t) <= 1) /\
    (forall n i j ti tj, ls !! i = Some ti -> ls !! j = Some tj -> 0 < mbal n (m_log ti) -> 0 < mbal n (m_log tj) -> i = j) /\
    (forall n, 0 <= n < size -> exists v, m_locked bpb b n = Ret v /\ (v = true <-> exists t, t ∈ ls /\ 0 < mbal n (m_log t))).
  Proof.
    intros Hs Hc Hr. destruct (mutex_invariant _ _ _ _ _ Hs Hc Hr) as (I1 & I2 & I3 & I4 & I5).
    assert (Hnn : forall n l, l ∈ ls -> 0 <= mbal n (m_log l)) by (intros n l Hl; apply tinv_bal; auto).
    assert (Hsum1 : forall n i t, ls !! i = Some t -> mbal n (m_log t) <= 1).
    { intros n i t Hi. destruct (decide (0 <= n < size)) as [Hn|Hn].
      - destruct (I4 n Hn) as (x & _ & Hsum). pose proof (sumZ_ge_elem (fun t => mbal n (m_log t)) ls i t (Hnn n) Hi) as H. cbn in H.
        destruct x; cbn in Hsum; lia.
      - rewrite (I5 n t Hn (elem_of_list_lookup_2 _ _ _ Hi)). lia. }
    split; [|split].
    - intros t n Ht. split; [auto|]. apply elem_of_list_lookup in Ht as [i Hi]. eauto.
    - intros n i j ti tj Hi Hj Hpi Hpj. destruct (decide (i = j)) as [E|Hne]; [exact E|]. exfalso.
      destruct (decide (0 <= n < size)) as [Hn|Hn].
      + destruct (I4 n Hn) as (x & _ & Hsum).
        pose proof (sumZ_ge_two (fun t => mbal n (m_log t)) ls i j ti tj (Hnn n) Hne Hi Hj) as H. cbn in H.
        destruct x; cbn in Hsum; lia.
      + rewrite (I5 n ti Hn (elem_of_list_lookup_2 _ _ _ Hi)) in Hpi. lia.
    - intros n Hn. destruct (locked_spec b n I1 ltac:(lia)) as (x & Hx & E). exists x. split; [exact E|].
      destruct (I4 n Hn) as (y & Hy & Hsum). rewrite Hx in Hy. injection Hy as <-. split.
      + intros ->. destruct (sumZ_pos_witness (fun t => mbal n (m_log t)) ls (Hnn n)) as (i & t & Hi & Hp); [cbn in Hsum; lia|].
        exists t. split; [eapply elem_of_list_lookup_2; exact Hi|exact Hp].
      + intros (t & Ht & Hp). apply elem_of_list_lookup in Ht as [i Hi].
        pose proof (sumZ_ge_elem (fun t => mbal n (m_log t)) ls i t (Hnn n) Hi) as H. cbn in H. destruct x; [reflexivity|]. cbn in Hsum. lia.
  Qed.

  Lemma count_zero_iff (l : list bool) : count_true l = 0 <-> forall i, l !! i <> Some true.
  Proof.
    unfold count_true. split.
    - intros H i Hi. assert (Hin : true ∈ filter (fun b => b = true) l).
      { apply elem_of_list_filter. split; [reflexivity|]. eapply elem_of_list_lookup_2; exact Hi. }
      destruct (filter _ _); [inversion Hin|discriminate].
    - intros H. destruct (filter (fun b => b = true) l) as [|a l'] eqn:Ef; [reflexivity|]. exfalso.
      assert (Hin : a ∈ filter (fun b => b = true) l) by (rewrite Ef; left).
      apply elem_of_list_filter in Hin as [-> Hin]. apply elem_of_list_lookup in Hin as [i Hi]. exact (H i Hi).
  Qed.

  Lemma valid_concurrent size progs b0 b ls : 0 <= size < 2 ^ 31 -> mutex_create bpb size = Ret b0 ->
    reach (mutex_step bpb) (mutex_init b0 progs) (b, ls) ->
    exists v, m_valid bpb b = Ret v /\ (v = true <-> forall t n, t ∈ ls -> mbal n (m_log t) = 0).
  Proof.
    intros Hs Hc Hr. destruct (mutex_invariant size progs b0 b ls ltac:(lia) Hc Hr) as (I1 & I2 & I3 & I4 & I5).
    unfold m_valid. rewrite count_spec by (try assumption; lia). cbn [obind]. eexists. split; [reflexivity|].
    rewrite Z.eqb_eq, count_zero_iff. split.
    - intros H t n Ht. destruct (decide (0 <= n < size)) as [Hn|Hn]; [|auto].
      destruct (I4 n Hn) as (x & Hx & Hsum). destruct x; [exfalso; exact (H _ Hx)|].
      apply elem_of_list_lookup in Ht as [i Hi].
      pose proof (sumZ_ge_elem (fun t => mbal n (m_log t)) ls i t (fun l Hl => tinv_bal l n (I3 l Hl)) Hi) as Hge. cbn in Hge, Hsum.
      pose proof (tinv_bal t n (I3 t (elem_of_list_lookup_2 _ _ _ Hi))). lia.
    - intros H i Hi. pose proof (lookup_lt_Some _ _ _ Hi) as Hlt. pose proof (bits_length bpb b ltac:(lia)).
      destruct (I4 (Z.of_nat i) ltac:(lia)) as (x & Hx & Hsum). rewrite Nat2Z.id, Hi in Hx. injection Hx as <-.
      rewrite sumZ_zero in Hsum; [discriminate|]. intros; apply H; assumption.
  Qed.

  Lemma try_all_concurrent size progs b0 b ls t l1 ns l2 r l3 : 0 <= size < 2 ^ 63 -> mutex_create bpb size = Ret b0 ->
    reach (mutex_step bpb) (mutex_init b0 progs) (b, ls) -> t ∈ ls ->
    m_log t = l1 ++ [EStart ns] ++ l2 ++ [EEnd ns r] ++ l3 -> no_calls l2 ->
    (r = -1 /\ forall n, mbal n (l1 ++ [EStart ns] ++ l2) = mbal n l1 + Z.of_nat (length (filter (fun m => m = n) ns))) \/
    (exists k n, r = Z.of_nat k /\ ns !! k = Some n /\
       l2 = ((fun m => ETry m true) <$> take k ns) ++ [ETry n false] ++ (EUnlock <$> reverse (take k ns)) /\
       forall m, mbal m (l1 ++ [EStart ns] ++ l2) = mbal m l1).
  Proof.
    intros Hs Hc Hr Ht El Hn. destruct (mutex_invariant _ _ _ _ _ Hs Hc Hr) as (_ & _ & I3 & _).
    destruct (I3 t Ht) as [Hok _]. destruct (Hok l1 ns l2 r l3 El Hn) as [(-> & ->)|(k & n & -> & Hk & ->)].
    - left. split; [reflexivity|]. intros n. cbn [app]. rewrite mbal_start, mbal_trues. f_equal.
      clear. induction ns as [|m ns IH]; [reflexivity|]. rewrite filter_cons. cbn [sumZ]. rewrite IH.
      destruct (Z.eqb_spec m n), (decide (m = n)); try lia. cbn [length]. lia.
    - right. exists k, n. split; [reflexivity|]. split; [exact Hk|]. split; [reflexivity|]. intros m. cbn [app].
      rewrite mbal_start, mbal_app, mbal_trues. change (ETry n false :: (EUnlock <$> reverse (take k ns))) with ([ETry n false] ++ (EUnlock <$> reverse (take k ns))). rewrite mbal_app, mbal_single, mbal_unlocks, cnt_reverse. cbn. lia.
  Qed.
End proofs.
