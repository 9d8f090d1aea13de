From Verif Require Import Base Conc BitModel BitProofs AtomicModel AtomicSpec.

Section lin.
  Context {V Op : Type} (newv : Op -> V -> V) (kind : Op -> akind).
  Hypothesis Hload : forall op v, kind op = CritLoad -> newv op v = v.

  Lemma legal_snoc v0 h v i op : legal newv v0 h v -> legal newv v0 (h ++ [(i, op, v)]) (newv op v).
  Proof.
    revert v0. induction h as [|[[j o] r] h IH]; intros v0; cbn.
    - intros ->. auto.
    - intros [-> H]. auto.
  Qed.

  Lemma by_thread_snoc_same i (h : list (nat * Op * V)) op r : by_thread i (h ++ [(i, op, r)]) = by_thread i h ++ [(op, r)].
  Proof.
    unfold by_thread. rewrite filter_app, fmap_app. f_equal.
    rewrite filter_cons, decide_True by reflexivity. reflexivity.
  Qed.
  Lemma by_thread_snoc_other i j (h : list (nat * Op * V)) op r : i <> j -> by_thread i (h ++ [(j, op, r)]) = by_thread i h.
  Proof.
    intros Hn. unfold by_thread. rewrite filter_app, fmap_app.
    rewrite filter_cons, decide_False by (cbn; congruence). cbn. apply app_nil_r.
  Qed.

  Definition pend (p : @apc V Op) : list Op :=
    match p with AIdle | ALeaving => [] | AEntered op | AHasRead op _ => [op] end.
  Definition in_crit (l : @athread V Op) : Z := match a_pc l with AIdle => 0 | _ => 1 end.

  Definition no_mix (progs : list (list Op)) : Prop :=
    (forall p op, p ∈ progs -> op ∈ p -> kind op <> HwAtomic) \/
    (forall p op, p ∈ progs -> op ∈ p -> kind op <> CritRMW).

  Definition AInv (v0 : V) (progs : list (list Op)) (c : config) : Prop :=
    let '(s, ls) := c in
    legal newv v0 (a_hist s) (a_val s) /\
    length ls = length progs /\
    (forall i l, ls !! i = Some l -> a_log l = by_thread i (a_hist s)) /\
    (forall i l, ls !! i = Some l -> progs !! i = Some ((fst <$> a_log l) ++ pend (a_pc l) ++ a_prog l)) /\
    sumZ in_crit ls = Z.b2z (a_crit s) /\
    (forall i l op, ls !! i = Some l -> a_pc l = AEntered op -> kind op <> HwAtomic) /\
    (forall i l op old, ls !! i = Some l -> a_pc l = AHasRead op old -> kind op = CritRMW /\ old = a_val s).

  Lemma in_crit_nonneg (ls : list (@athread V Op)) : forall l, l ∈ ls -> 0 <= in_crit l.
  Proof. intros l _. unfold in_crit. destruct (a_pc l); lia. Qed.

  Lemma others_idle (ls : list (@athread V Op)) i l j l' b : sumZ in_crit ls = Z.b2z b ->
    ls !! i = Some l -> ls !! j = Some l' -> i <> j -> a_pc l <> AIdle -> a_pc l' = AIdle.
  Proof.
    intros Hs Hi Hj Hn Hl.
    pose proof (sumZ_ge_two in_crit ls i j l l' (in_crit_nonneg ls) Hn Hi Hj) as H.
    unfold in_crit in H at 1 2. destruct b; cbn in Hs; destruct (a_pc l); try congruence; destruct (a_pc l'); try congruence; lia.
  Qed.

  Ltac look i0 i := destruct (decide (i0 = i)) as [->|?];
     [rewrite list_lookup_insert in * by (eapply lookup_lt_Some; eassumption)
     |rewrite list_lookup_insert_ne in * by congruence].

  Lemma AInv_step v0 progs c c' : no_mix progs -> AInv v0 progs c -> cstep (astep newv kind) c c' -> AInv v0 progs c'.
  Proof.
    intros Hmix HI Hs. destruct Hs as [s ls i l s' l' Hi Hstep].
    destruct HI as (Hleg & Hlen & Hlog & Hprog & Hcrit & Hent & Hrd).
    assert (Hlt : (i < length ls)%nat) by (eapply lookup_lt_Some; eassumption).
    unfold astep in Hstep.
    destruct (a_pc l) as [|op|op old|] eqn:Epc.
    - (* idle *)
      destruct (a_prog l) as [|op rest] eqn:Eprog; [discriminate|].
      pose proof (Hprog i l Hi) as Hp. rewrite Epc, Eprog in Hp. cbn [pend app] in Hp.
      assert (Hin : exists p, p ∈ progs /\ op ∈ p).
      { eexists. split; [eapply elem_of_list_lookup_2; exact Hp|]. apply elem_of_app. right. left. }
      destruct Hin as (p0 & Hp0 & Hop).
      destruct (kind op) eqn:Ek.
      + (* hardware atomic *)
        injection Hstep as <- <-. unfold AInv, effect; cbn [a_val a_crit a_hist].
        assert (Hno : forall j lj o old, ls !! j = Some lj -> a_pc lj = AHasRead o old -> False).
        { intros j lj o old Hj Epcj. destruct (Hrd _ _ _ _ Hj Epcj) as [Hk _].
          destruct Hmix as [Hm|Hm]; [exact (Hm _ _ Hp0 Hop Ek)|].
          pose proof (Hprog j lj Hj) as Hpj. rewrite Epcj in Hpj. cbn [pend app] in Hpj.
          eapply Hm; [eapply elem_of_list_lookup_2; exact Hpj| |exact Hk]. apply elem_of_app. right. left. }
        split; [apply legal_snoc; exact Hleg|].
        split; [rewrite insert_length; exact Hlen|].
        split. { intros j lj Hj. look j i.
          - injection Hj as <-. cbn. rewrite by_thread_snoc_same. f_equal. auto.
          - rewrite by_thread_snoc_other by congruence. auto. }
        split. { intros j lj Hj. look j i.
          - injection Hj as <-. cbn [a_log a_pc a_prog pend]. rewrite fmap_app. cbn. rewrite Hp.
            rewrite <- app_assoc. reflexivity.
          - auto. }
        split. { rewrite (sumZ_insert _ _ _ _ _ Hi). unfold in_crit at 2 3. cbn [a_pc]. rewrite Epc. lia. }
        split.
        * intros j lj o Hj Hpc. look j i; [injection Hj as <-; discriminate|eauto].
        * intros j lj o old Hj Hpc. look j i; [injection Hj as <-; discriminate|]. exfalso. eauto.
      + destruct (a_crit s) eqn:Ec; [discriminate|]. injection Hstep as <- <-. unfold AInv, set_crit; cbn [a_val a_crit a_hist].
        split; [exact Hleg|]. split; [rewrite insert_length; exact Hlen|].
        split; [intros j lj Hj; look j i; [injection Hj as <-; cbn; auto|auto]|].
        split. { intros j lj Hj. look j i; [injection Hj as <-; cbn [a_log a_pc a_prog pend]; rewrite Hp; reflexivity|auto]. }
        split. { rewrite (sumZ_insert _ _ _ _ _ Hi). unfold in_crit at 2 3. cbn [a_pc]. rewrite Epc. cbn in *. lia. }
        split; [intros j lj o Hj Hpc; look j i; [injection Hj as <-; cbn in Hpc; congruence|eauto]|].
        intros j lj o old Hj Hpc. look j i; [injection Hj as <-; discriminate|eauto].
      + destruct (a_crit s) eqn:Ec; [discriminate|]. injection Hstep as <- <-. unfold AInv, set_crit; cbn [a_val a_crit a_hist].
        split; [exact Hleg|]. split; [rewrite insert_length; exact Hlen|].
        split; [intros j lj Hj; look j i; [injection Hj as <-; cbn; auto|auto]|].
        split. { intros j lj Hj. look j i; [injection Hj as <-; cbn [a_log a_pc a_prog pend]; rewrite Hp; reflexivity|auto]. }
        split. { rewrite (sumZ_insert _ _ _ _ _ Hi). unfold in_crit at 2 3. cbn [a_pc]. rewrite Epc. cbn in *. lia. }
        split; [intros j lj o Hj Hpc; look j i; [injection Hj as <-; cbn in Hpc; congruence|eauto]|].
        intros j lj o old Hj Hpc. look j i; [injection Hj as <-; discriminate|eauto].
      + destruct (a_crit s) eqn:Ec; [discriminate|]. injection Hstep as <- <-. unfold AInv, set_crit; cbn [a_val a_crit a_hist].
        split; [exact Hleg|]. split; [rewrite insert_length; exact Hlen|].
        split; [intros j lj Hj; look j i; [injection Hj as <-; cbn; auto|auto]|].
        split. { intros j lj Hj. look j i; [injection Hj as <-; cbn [a_log a_pc a_prog pend]; rewrite Hp; reflexivity|auto]. }
        split. { rewrite (sumZ_insert _ _ _ _ _ Hi). unfold in_crit at 2 3. cbn [a_pc]. rewrite Epc. cbn in *. lia. }
        split; [intros j lj o Hj Hpc; look j i; [injection Hj as <-; cbn in Hpc; congruence|eauto]|].
        intros j lj o old Hj Hpc. look j i; [injection Hj as <-; discriminate|eauto].
    - (* entered *)
      pose proof (Hent i l op Hi Epc) as Hk.
      pose proof (Hprog i l Hi) as Hp. rewrite Epc in Hp. cbn [pend app] in Hp.
      assert (Hidle : forall j lj, ls !! j = Some lj -> j <> i -> a_pc lj = AIdle).
      { intros j lj Hj Hne. eapply (others_idle ls i l j lj); eauto. congruence. }
      destruct (kind op) eqn:Ek; [congruence| | |].
      + injection Hstep as <- <-. unfold AInv.
        split; [exact Hleg|]. split; [rewrite insert_length; exact Hlen|].
        split; [intros j lj Hj; look j i; [injection Hj as <-; cbn; auto|auto]|].
        split. { intros j lj Hj. look j i; [injection Hj as <-; cbn [a_log a_pc a_prog pend]; rewrite Hp; reflexivity|auto]. }
        split. { rewrite (sumZ_insert _ _ _ _ _ Hi). unfold in_crit at 2 3. cbn [a_pc]. rewrite Epc. lia. }
        split; [intros j lj o Hj Hpc; look j i; [injection Hj as <-; discriminate|eauto]|].
        intros j lj o old Hj Hpc. look j i; [injection Hj as <-; cbn in Hpc; injection Hpc as <- <-; auto|eauto].
      + injection Hstep as <- <-. unfold AInv, effect; cbn [a_val a_crit a_hist].
        split. { pose proof (legal_snoc _ _ _ i op Hleg) as HL. rewrite Hload in HL by exact Ek. exact HL. }
        split; [rewrite insert_length; exact Hlen|].
        split. { intros j lj Hj. look j i.
          - injection Hj as <-. cbn. rewrite by_thread_snoc_same. f_equal. auto.
          - rewrite by_thread_snoc_other by congruence. auto. }
        split. { intros j lj Hj. look j i.
          - injection Hj as <-. cbn [a_log a_pc a_prog pend]. rewrite fmap_app. cbn. rewrite Hp. rewrite <- app_assoc. reflexivity.
          - auto. }
        split. { rewrite (sumZ_insert _ _ _ _ _ Hi). unfold in_crit at 2 3. cbn [a_pc]. rewrite Epc. lia. }
        split; [intros j lj o Hj Hpc; look j i; [injection Hj as <-; discriminate|eauto]|].
        intros j lj o old Hj Hpc. look j i; [injection Hj as <-; discriminate|eauto].
      + injection Hstep as <- <-. unfold AInv, effect; cbn [a_val a_crit a_hist].
        split; [apply legal_snoc; exact Hleg|].
        split; [rewrite insert_length; exact Hlen|].
        split. { intros j lj Hj. look j i.
          - injection Hj as <-. cbn. rewrite by_thread_snoc_same. f_equal. auto.
          - rewrite by_thread_snoc_other by congruence. auto. }
        split. { intros j lj Hj. look j i.
          - injection Hj as <-. cbn [a_log a_pc a_prog pend]. rewrite fmap_app. cbn. rewrite Hp. rewrite <- app_assoc. reflexivity.
          - auto. }
        split. { rewrite (sumZ_insert _ _ _ _ _ Hi). unfold in_crit at 2 3. cbn [a_pc]. rewrite Epc. lia. }
        split; [intros j lj o Hj Hpc; look j i; [injection Hj as <-; discriminate|eauto]|].
        intros j lj o old Hj Hpc. look j i; [injection Hj as <-; discriminate|].
        rewrite (Hidle j lj Hj) in Hpc by congruence. discriminate.
    - (* has read *)
      injection Hstep as <- <-. destruct (Hrd i l op old Hi Epc) as [Hk ->].
      pose proof (Hprog i l Hi) as Hp. rewrite Epc in Hp. cbn [pend app] in Hp.
      assert (Hidle : forall j lj, ls !! j = Some lj -> j <> i -> a_pc lj = AIdle).
      { intros j lj Hj Hne. eapply (others_idle ls i l j lj); eauto. congruence. }
      unfold AInv, effect; cbn [a_val a_crit a_hist].
      split; [apply legal_snoc; exact Hleg|].
      split; [rewrite insert_length; exact Hlen|].
      split. { intros j lj Hj. look j i.
        - injection Hj as <-. cbn. rewrite by_thread_snoc_same. f_equal. auto.
        - rewrite by_thread_snoc_other by congruence. auto. }
      split. { intros j lj Hj. look j i.
        - injection Hj as <-. cbn [a_log a_pc a_prog pend]. rewrite fmap_app. cbn. rewrite Hp. rewrite <- app_assoc. reflexivity.
        - auto. }
      split. { rewrite (sumZ_insert _ _ _ _ _ Hi). unfold in_crit at 2 3. cbn [a_pc]. rewrite Epc. lia. }
      split; [intros j lj o Hj Hpc; look j i; [injection Hj as <-; discriminate|eauto]|].
      intros j lj o old Hj Hpc. look j i; [injection Hj as <-; discriminate|].
      rewrite (Hidle j lj Hj) in Hpc by congruence. discriminate.
    - (* leaving *)
      injection Hstep as <- <-. unfold AInv, set_crit; cbn [a_val a_crit a_hist].
      pose proof (Hprog i l Hi) as Hp. rewrite Epc in Hp. cbn [pend app] in Hp.
      split; [exact Hleg|]. split; [rewrite insert_length; exact Hlen|].
      split; [intros j lj Hj; look j i; [injection Hj as <-; cbn; auto|auto]|].
      split. { intros j lj Hj. look j i; [injection Hj as <-; cbn [a_log a_pc a_prog pend]; rewrite Hp; reflexivity|auto]. }
      split. { rewrite (sumZ_insert _ _ _ _ _ Hi). unfold in_crit at 2 3. cbn [a_pc]. rewrite Epc.
        pose proof (sumZ_ge_elem in_crit ls i l (in_crit_nonneg ls) Hi) as Hge. unfold in_crit in Hge at 1. rewrite Epc in Hge.
        destruct (a_crit s); cbn in *; lia. }
      split; [intros j lj o Hj Hpc; look j i; [injection Hj as <-; discriminate|eauto]|].
      intros j lj o old Hj Hpc. look j i; [injection Hj as <-; discriminate|eauto].
  Qed.

  Lemma AInv_init v0 progs : AInv v0 progs (a_init v0 progs).
  Proof.
    unfold AInv, a_init. cbn [a_hist a_val a_crit].
    split; [reflexivity|]. split; [apply fmap_length|].
    assert (H : forall i l, ((fun p => {| a_prog := p; a_pc := AIdle; a_log := [] |}) <$> progs) !! i = Some l ->
       exists p, progs !! i = Some p /\ l = {| a_prog := p; a_pc := AIdle (V:=V); a_log := [] |}).
    { intros i l H. rewrite list_lookup_fmap in H. destruct (progs !! i) as [p|]; [|discriminate]. cbn in H. injection H as <-. eauto. }
    split; [intros i l Hl; apply H in Hl as (p & Hp & ->); reflexivity|].
    split; [intros i l Hl; apply H in Hl as (p & Hp & ->); exact Hp|].
    split. { apply sumZ_zero. intros l Hl. apply elem_of_list_lookup in Hl as [i Hl]. apply H in Hl as (p & Hp & ->). reflexivity. }
    split; intros i l; intros; match goal with Hl : _ !! _ = Some _ |- _ => apply H in Hl as (p & Hp & ->) end; discriminate.
  Qed.

  Lemma linearizable v0 progs s ls : no_mix progs -> reach (astep newv kind) (a_init v0 progs) (s, ls) ->
    exists h, legal newv v0 h (a_val s) /\
      (forall i l, ls !! i = Some l -> a_log l = by_thread i h) /\
      (forall e, e ∈ h -> (e.1.1 < length progs)%nat) /\
      (all_done ls -> forall i p, progs !! i = Some p -> fst <$> by_thread i h = p).
  Proof.
    intros Hmix Hr.
    assert (HI : AInv v0 progs (s, ls)).
    { eapply (invariant (astep newv kind)); [|apply AInv_init|exact Hr]. intros c c' Hc Hs. eapply AInv_step; eauto. }
    assert (Htid : forall e, e ∈ a_hist s -> (e.1.1 < length progs)%nat).
    { clear HI. assert (H : length ls = length progs /\ forall e, e ∈ a_hist s -> (e.1.1 < length progs)%nat).
      { refine (invariant (astep newv kind) (fun c => length c.2 = length progs /\ forall e, e ∈ a_hist c.1 -> (e.1.1 < length progs)%nat) _ (a_init v0 progs) (s, ls) _ Hr).
        - intros c c' [Hl He] Hs. destruct Hs as [s0 ls0 i l s' l' Hi Hst]. cbn in *. rewrite insert_length.
          assert (Hlt : (i < length progs)%nat) by (rewrite <- Hl; eapply lookup_lt_Some; eassumption).
          split; [exact Hl|]. intros e Hin.
          assert (Hc : a_hist s' = a_hist s0 \/ exists o r, a_hist s' = a_hist s0 ++ [(i, o, r)]).
          { unfold astep in Hst. repeat (case_match; try discriminate); injection Hst as <- <-; cbn; eauto. }
          destruct Hc as [Hc|(o & r & Hc)]; rewrite Hc in Hin; [auto|].
          apply elem_of_app in Hin as [Hin|Hin]; [auto|]. apply elem_of_list_singleton in Hin as ->. exact Hlt.
        - cbn. split; [apply fmap_length|]. intros e He. apply elem_of_nil in He. contradiction. }
      apply H. }
    destruct HI as (Hleg & Hlen & Hlog & Hprog & _).
    exists (a_hist s). split; [exact Hleg|]. split; [exact Hlog|]. split; [exact Htid|].
    intros Hdone i p Hp.
    destruct (lookup_lt_is_Some_2 ls i) as [l Hl]; [rewrite Hlen; eapply lookup_lt_Some; eassumption|].
    rewrite <- (Hlog _ _ Hl). specialize (Hprog _ _ Hl). destruct (Hdone l) as [E1 E2]; [eapply elem_of_list_lookup_2; exact Hl|].
    rewrite E1, E2 in Hprog. cbn in Hprog. rewrite app_nil_r in Hprog. congruence.
  Qed.
  (** a later history extends an earlier one *)
  Lemma hist_extends c c' : reach (astep newv kind) c c' -> exists h, a_hist c'.1 = a_hist c.1 ++ h.
  Proof.
    intros R. refine (invariant (astep newv kind) (fun x => exists h, a_hist x.1 = a_hist c.1 ++ h) _ c c' _ R); [|exists []; symmetry; apply app_nil_r].
    intros c1 c2 [h Hh] Hs. destruct Hs as [s0 ls0 i l s' l' Hi Hst]. cbn [fst] in *.
    assert (Hc : a_hist s' = a_hist s0 \/ exists o r, a_hist s' = a_hist s0 ++ [(i, o, r)]).
    { unfold astep in Hst. repeat (case_match; try discriminate); injection Hst as <- <-; cbn; eauto. }
    destruct Hc as [-> |(o & r & ->)]; rewrite Hh; [eauto|]. rewrite <- app_assoc. eauto.
  Qed.
  Lemma linearizable_in_time v0 progs s ls s' ls' : no_mix progs -> reach (astep newv kind) (a_init v0 progs) (s, ls) -> reach (astep newv kind) (s, ls) (s', ls') ->
    exists h h', legal newv v0 h (a_val s) /\ legal newv v0 (h ++ h') (a_val s') /\
      (forall i l, ls !! i = Some l -> a_log l = by_thread i h) /\ (forall i l, ls' !! i = Some l -> a_log l = by_thread i (h ++ h')).
  Proof.
    intros Hmix R R2. destruct (hist_extends _ _ R2) as [h' Hh']. cbn [fst] in Hh'. exists (a_hist s), h'. rewrite <- Hh'.
    assert (HI : forall c, reach (astep newv kind) (a_init v0 progs) c -> AInv v0 progs c).
    { intros c Rc. eapply (invariant (astep newv kind)); [|apply AInv_init|exact Rc]. intros c1 c2 Hc Hs. eapply AInv_step; eauto. }
    destruct (HI _ R) as (H1 & _ & H2 & _). destruct (HI (s', ls') (rtc_transitive _ _ _ R R2)) as (H3 & _ & H4 & _). auto.
  Qed.
End lin.

(** tickets *)
Lemma legal_incr w v0 h v : 0 < w -> 0 <= v0 < 2 ^ w -> legal (new_value w) v0 h v -> (forall e, e ∈ h -> e.1.2 = AAdd 1) ->
  h.*2 = (fun k => (v0 + Z.of_nat k) mod 2 ^ w) <$> seq 0 (length h) /\ v = (v0 + Z.of_nat (length h)) mod 2 ^ w.
Proof.
  intros Hw. revert v0. induction h as [|[[i op] r] h IH]; intros v0 Hv Hleg Hop.
  - cbn in *. subst. rewrite Z.mod_small by lia. split; [reflexivity|lia].
  - cbn in Hleg. destruct Hleg as [-> Hleg].
    assert (Hop0 : op = AAdd 1) by (apply (Hop (i, op, v0)); left). subst op.
    pose proof (pow2_pos w ltac:(lia)).
    apply IH in Hleg as [H1 H2].
    + cbn [length]. cbn [seq]. rewrite !fmap_cons. rewrite H1. split.
      * f_equal; [cbn; rewrite Z.mod_small by lia; lia|].
        rewrite <- (fmap_S_seq 0), <- list_fmap_compose. apply list_fmap_ext. intros k x Hk. cbn.
        unfold wrap. rewrite Zplus_mod_idemp_l. f_equal. lia.
      * rewrite H2. cbn. unfold wrap. rewrite Zplus_mod_idemp_l. f_equal. lia.
    + unfold new_value, wrap. apply Z.mod_pos_bound. lia.
    + intros e He. apply Hop. right. exact He.
Qed.

Lemma kind_openmp_load sg w op v : kind_openmp op = CritLoad -> cell_value sg w op v = v.
Proof. destruct op, sg; cbn; congruence. Qed.
Lemma kind_gpu_load sg w op v : kind_gpu op = CritLoad -> cell_value sg w op v = v.
Proof. discriminate. Qed.

Lemma gpu_no_mix progs : no_mix kind_gpu progs.
Proof. right. intros p op _ _. discriminate. Qed.

(** GPU backends: every program *)
Lemma linearizable_gpu sg w v0 progs s ls :
  reach (astep (cell_value sg w) kind_gpu) (a_init v0 progs) (s, ls) ->
  exists h, legal (cell_value sg w) v0 h (a_val s) /\
      (forall i l, ls !! i = Some l -> a_log l = by_thread i h) /\
      (forall e, e ∈ h -> (e.1.1 < length progs)%nat) /\
      (all_done ls -> forall i p, progs !! i = Some p -> fst <$> by_thread i h = p).
Proof. apply linearizable; [intros; apply (kind_gpu_load sg w); assumption|apply gpu_no_mix]. Qed.

(** OpenMP backend: programs that do not mix the two mechanisms *)
Lemma linearizable_openmp sg w v0 progs s ls :
  (forall p op, p ∈ progs -> op ∈ p -> kind_openmp op <> HwAtomic) \/
  (forall p op, p ∈ progs -> op ∈ p -> kind_openmp op <> CritRMW) ->
  reach (astep (cell_value sg w) kind_openmp) (a_init v0 progs) (s, ls) ->
  exists h, legal (cell_value sg w) v0 h (a_val s) /\
      (forall i l, ls !! i = Some l -> a_log l = by_thread i h) /\
      (forall e, e ∈ h -> (e.1.1 < length progs)%nat) /\
      (all_done ls -> forall i p, progs !! i = Some p -> fst <$> by_thread i h = p).
Proof. intros Hm. apply linearizable; [intros; apply (kind_openmp_load sg w); assumption|exact Hm]. Qed.

(** total number of events in a history *)
Lemma by_thread_total {V Op} (h : list (nat * Op * V)) n : (forall e, e ∈ h -> (e.1.1 < n)%nat) ->
  length h = sum_list ((fun i => length (by_thread i h)) <$> seq 0 n).
Proof.
  intros Hn. induction h as [|[[i op] r] h IH].
  - cbn [length]. clear. assert (H : forall k, 0%nat = sum_list ((fun i => length (by_thread i (@nil (nat * Op * V)))) <$> seq k n)); [|apply H].
    induction n as [|n IHn]; intros k; [reflexivity|]. cbn [seq]. rewrite fmap_cons. cbn [sum_list foldr]. rewrite <- IHn. reflexivity.
  - assert (Hi : (i < n)%nat) by (apply (Hn (i, op, r)); left).
    cbn [length]. rewrite IH by (intros e He; apply Hn; right; exact He).
    assert (E : forall j, length (by_thread j ((i, op, r) :: h)) = ((if decide (i = j) then 1 else 0) + length (by_thread j h))%nat).
    { intros j. unfold by_thread. rewrite filter_cons. cbn. destruct (decide (i = j)); reflexivity. }
    rewrite (list_fmap_ext (fun i0 => length (by_thread i0 ((i, op, r) :: h))) (fun j => ((if decide (i = j) then 1 else 0) + length (by_thread j h))%nat) (seq 0 n)) by (intros ? ? _; apply E).
    clear - Hi. assert (H : forall k m, (k <= i < k + m)%nat -> 
      S (sum_list ((fun j => length (by_thread j h)) <$> seq k m)) =
      sum_list ((fun j => ((if decide (i = j) then 1 else 0) + length (by_thread j h))%nat) <$> seq k m)).
    { intros k m. revert k. induction m as [|m IH]; intros k Hk; [lia|]. cbn.
      destruct (decide (i = k)) as [->|Hne].
      - assert (E : forall a b, (k < a)%nat -> sum_list ((fun j => ((if decide (k = j) then 1 else 0) + length (by_thread j h))%nat) <$> seq a b)
            = sum_list ((fun j => length (by_thread j h)) <$> seq a b)).
        { intros a b. revert a. induction b as [|b IHb]; intros a Ha; [reflexivity|]. cbn. rewrite IHb by lia.
          rewrite decide_False by lia. reflexivity. }
        rewrite E by lia. lia.
      - specialize (IH (S k)). lia. }
    apply H. lia.
Qed.

(** tickets for the machine: any backend *)
Lemma tickets w kind v0 progs s ls : 0 < w -> 0 <= v0 < 2 ^ w ->
  kind = kind_gpu \/ kind = kind_openmp ->
  (forall p op, p ∈ progs -> op ∈ p -> op = AAdd 1) ->
  reach (astep (new_value w) kind) (a_init v0 progs) (s, ls) -> all_done ls ->
  exists h, 
    (forall i l, ls !! i = Some l -> a_log l = by_thread i h) /\
    h.*2 = (fun k => (v0 + Z.of_nat k) mod 2 ^ w) <$> seq 0 (sum_list (length <$> progs)) /\
    a_val s = (v0 + Z.of_nat (sum_list (length <$> progs))) mod 2 ^ w.
Proof.
  intros Hw Hv Hk Hop Hr Hdone.
  assert (HL : exists h, legal (new_value w) v0 h (a_val s) /\
      (forall i l, ls !! i = Some l -> a_log l = by_thread i h) /\
      (forall e, e ∈ h -> (e.1.1 < length progs)%nat) /\
      (all_done ls -> forall i p, progs !! i = Some p -> fst <$> by_thread i h = p)).
  { destruct Hk as [-> | ->]; [apply (linearizable_gpu false); exact Hr|].
    apply (linearizable_openmp false); [|exact Hr]. right. intros p op H1 H2. rewrite (Hop p op H1 H2). discriminate. }
  destruct HL as (h & Hleg & Hlog & Htid & Hd). specialize (Hd Hdone).
  assert (Hlen : length h = sum_list (length <$> progs)).
  { rewrite (by_thread_total h (length progs) Htid). f_equal.
    apply list_eq. intros i. rewrite !list_lookup_fmap.
    destruct (decide (i < length progs)%nat) as [Hi|Hi].
    - rewrite lookup_seq_lt by lia. destruct (lookup_lt_is_Some_2 progs i Hi) as [p Hp]. rewrite Hp. cbn.
      rewrite <- (Hd i p Hp). rewrite fmap_length. reflexivity.
    - rewrite lookup_seq_ge by lia. rewrite (lookup_ge_None_2 progs) by lia. reflexivity. }
  assert (Hadd : forall e, e ∈ h -> e.1.2 = AAdd 1).
  { intros [[i op] r] He. cbn. pose proof (Htid _ He) as Hi. cbn in Hi.
    destruct (lookup_lt_is_Some_2 progs i Hi) as [p Hp]. apply (Hop p op); [eapply elem_of_list_lookup_2; exact Hp|].
    rewrite <- (Hd i p Hp). unfold by_thread. rewrite <- list_fmap_compose. apply elem_of_list_fmap.
    exists (i, op, r). split; [reflexivity|]. apply elem_of_list_filter. auto. }
  destruct (legal_incr w v0 h (a_val s) Hw Hv Hleg Hadd) as [H1 H2].
  rewrite Hlen in H1, H2. eauto.
Qed.

(** OpenMP: mixing the mechanisms is not linearizable *)
Lemma openmp_mix_not_linearizable :
  exists progs s ls,
    reach (astep (new_value 32) kind_openmp) (a_init 0 progs) (s, ls) /\ all_done ls /\
    ~ exists h, legal (new_value 32) 0 h (a_val s) /\ (forall i l, ls !! i = Some l -> a_log l = by_thread i h)
        /\ (forall e, e ∈ h -> (e.1.1 < length progs)%nat).
Proof.
  exists [[AMax 10]; [AAdd 1]].
  destruct (run (astep (new_value 32) kind_openmp) [0; 0; 1; 0; 0]%nat (a_init 0 [[AMax 10]; [AAdd 1]])) as [[s ls]|] eqn:E;
    [|vm_compute in E; discriminate].
  exists s, ls. split; [eapply run_reach; exact E|].
  vm_compute in E. injection E as <- <-. split.
  - intros l Hl. apply elem_of_cons in Hl as [->|Hl]; [auto|]. apply elem_of_list_singleton in Hl as ->. auto.
  - intros (h & Hleg & Hlog & Htid). cbn in Hleg.
    pose proof (Hlog 0%nat _ eq_refl) as H0. pose proof (Hlog 1%nat _ eq_refl) as H1. cbn in H0, H1.
    pose proof (by_thread_total h 2 Htid) as Hlen. cbn in Hlen. rewrite <- H0, <- H1 in Hlen. cbn in Hlen.
    destruct h as [|[[i1 o1] r1] [|[[i2 o2] r2] [|e h]]]; cbn in Hlen; try lia.
    pose proof (Htid (i1, o1, r1) ltac:(left)) as Hi1. pose proof (Htid (i2, o2, r2) ltac:(right; left)) as Hi2. cbn in Hi1, Hi2.
    cbn in Hleg. destruct Hleg as (-> & -> & Hval).
    destruct i1 as [|[|i1]]; [| |lia]; destruct i2 as [|[|i2]]; try lia; cbn in H0, H1; try discriminate;
      injection H0; injection H1; clear H0 H1; intros; subst; cbn in *; discriminate.
Qed.

(** ** ring counters *)
Lemma inc_mod_spec w m v : 0 < w -> 0 < m < 2 ^ w -> 0 <= v < m -> new_value w (AIncMod m) v = (v + 1) mod m.
Proof.
  intros Hw Hm Hv. cbn. unfold backend_inc_mod. rewrite wrap_small by lia.
  destruct (Z.leb_spec (m - 1) v).
  - replace (v + 1) with (1 * m) by lia. rewrite Z.mod_mul by lia. reflexivity.
  - rewrite wrap_small by lia. rewrite Z.mod_small by lia. reflexivity.
Qed.
Lemma dec_mod_spec w m v : 0 < w -> 0 < m < 2 ^ w -> 0 <= v < m -> new_value w (ADecMod m) v = (v - 1) mod m.
Proof.
  intros Hw Hm Hv. cbn. unfold backend_dec_mod. rewrite !wrap_small by lia.
  destruct (Z.eqb_spec v 0) as [->|Hn]; cbn.
  - replace (0 - 1) with (m - 1 + (-1) * m) by lia. rewrite Z.mod_add, Z.mod_small by lia. reflexivity.
  - destruct (Z.ltb_spec (m - 1) v); [lia|]. rewrite wrap_small by lia. rewrite Z.mod_small by lia. reflexivity.
Qed.

(** a sequence of increments (true) and decrements (false) *)
Definition ring_run (w m : Z) (ops : list bool) (v : Z) : Z :=
  fold_left (fun v (up : bool) => new_value w (if up then AIncMod m else ADecMod m) v) ops v.
Definition net (ops : list bool) : Z := sumZ (fun up : bool => if up then 1 else -1) ops.

Lemma ring_run_spec w m ops : 0 < w -> 0 < m < 2 ^ w -> forall v, 0 <= v < m ->
  ring_run w m ops v = (v + net ops) mod m /\ 0 <= ring_run w m ops v < m.
Proof.
  intros Hw Hm. unfold ring_run, net. induction ops as [|up ops IH]; intros v Hv.
  - cbn. rewrite Z.add_0_r, Z.mod_small by lia. lia.
  - cbn [fold_left sumZ].
    assert (E : new_value w (if up then AIncMod m else ADecMod m) v = (v + (if up then 1 else -1)) mod m).
    { destruct up; [apply inc_mod_spec|rewrite dec_mod_spec]; auto. }
    rewrite E. pose proof (Z.mod_pos_bound (v + (if up then 1 else -1)) m ltac:(lia)).
    destruct (IH _ H) as [IH1 IH2]. split; [|exact IH2].
    rewrite IH1. rewrite Zplus_mod_idemp_l. f_equal. lia.
Qed.

(** ** compare exchange *)
Lemma compare_exchange_spec {T} (eqb : T -> T -> bool) stored expected desired :
  (eqb stored expected = true -> compare_exchange_strong eqb stored expected desired = (desired, expected, true)) /\
  (eqb stored expected = false -> compare_exchange_strong eqb stored expected desired = (stored, stored, false)).
Proof. unfold compare_exchange_strong. split; intros ->; reflexivity. Qed.

(** ** CAS loop *)
Section cas_loop.
  Context {F : Type} (of_bits : Z -> F) (to_bits : F -> Z) (pick : F -> F) (env : nat -> Z).

  Lemma cas_loop_spec fuel : forall k assumed r ws,
    cas_loop of_bits to_bits pick env fuel k assumed = Ret (r, ws) ->
    exists n, (k <= n)%nat /\ r = of_bits (env n) /\ ws = [(n, to_bits (pick (of_bits (env n))))].
  Proof.
    induction fuel as [|fuel IH]; intros k assumed r ws H; [discriminate|]. cbn [cas_loop] in H.
    destruct (Z.eqb_spec assumed (env k)) as [->|Hne]; cbn [negb] in H.
    - rewrite Z.eqb_refl in H. injection H as <- <-. exists k. auto.
    - destruct (Z.eqb_spec (env k) assumed) as [?|_]; [congruence|].
      destruct (cas_loop _ _ _ _ fuel (S k) (env k)) as [[r' ws']| |] eqn:E; try discriminate.
      cbn in H. injection H as <- <-. destruct (IH _ _ _ _ E) as (n & Hn & H1 & H2). exists n. split; [lia|auto].
  Qed.

  Lemma cas_loop_terminates k0 : forall fuel k assumed, 
    (exists n, (k <= n <= k0)%nat /\ env n = (if decide (n = k) then assumed else env (n - 1)%nat)) -> (k0 < k + fuel)%nat ->
    exists r, cas_loop of_bits to_bits pick env fuel k assumed = Ret r.
  Proof.
    induction fuel as [|fuel IH]; intros k assumed (n & Hn & He) Hf; [lia|].
    cbn [cas_loop]. destruct (Z.eqb_spec assumed (env k)) as [->|Hne]; cbn [negb]; [eauto|].
    destruct (decide (n = k)) as [->|Hnk]; [congruence|].
    destruct (IH (S k) (env k)) as [r Hr].
    - exists n. split; [lia|]. destruct (decide (n = S k)) as [->|?]; [|exact He].
      rewrite He. f_equal. lia.
    - lia.
    - rewrite Hr. cbn. eauto.
  Qed.

  Lemma atomic_minmax_spec fuel r ws :
    atomic_minmax_float of_bits to_bits pick env fuel = Ret (r, ws) ->
    exists n, (1 <= n)%nat /\ r = of_bits (env n) /\ ws = [(n, to_bits (pick (of_bits (env n))))].
  Proof. apply cas_loop_spec. Qed.

  Lemma atomic_minmax_terminates n : (1 <= n)%nat -> env n = env (n - 1)%nat ->
    forall fuel, (n <= fuel)%nat -> exists r, atomic_minmax_float of_bits to_bits pick env fuel = Ret r.
  Proof.
    intros Hn He fuel Hf. apply (cas_loop_terminates n); [|lia]. exists n. split; [lia|].
    destruct (decide (n = 1%nat)) as [->|?]; [exact He|exact He].
  Qed.
End cas_loop.

Lemma atomicSub_ull_spec stored value : 0 <= stored < 2 ^ 64 -> 0 <= value < 2 ^ 64 ->
  atomicSub_ull stored value = (stored - value) mod 2 ^ 64.
Proof.
  intros Hs Hv. unfold atomicSub_ull. rewrite (wrap_small 64 (2 ^ 64 - 1 - value)) by lia.
  unfold wrap. rewrite Zplus_mod_idemp_r.
  replace (stored + (2 ^ 64 - 1 - value + 1)) with (stored - value + 1 * 2 ^ 64) by lia.
  apply Z.mod_add. lia.
Qed.

(** ** fences *)
Lemma reorder1_fence l1 l2 l' : reorder1 (l1 ++ MFence :: l2) l' ->
  exists l1' l2', l' = l1' ++ MFence :: l2' /\ ((reorder1 l1 l1' /\ l2' = l2) \/ (l1' = l1 /\ reorder1 l2 l2')).
Proof.
  inversion 1 as [a x y b Hab]; subst. clear H. revert a Hab.
  induction l1 as [|e l1 IH]; intros a Hab; cbn in *.
  - destruct a as [|c a]; cbn in Hab; [discriminate|]. injection Hab as -> <-.
    exists [], (a ++ MAcc y :: MAcc x :: b). split; [reflexivity|]. right. split; [reflexivity|constructor].
  - destruct a as [|c a]; cbn in Hab.
    + injection Hab as <- Hab. destruct l1 as [|e' l1]; cbn in Hab; [discriminate|]. injection Hab as <- ->.
      exists (MAcc y :: MAcc x :: l1), l2. split; [reflexivity|]. left. split; [|reflexivity]. apply (Reorder1 [] x y l1).
    + injection Hab as -> Hab. destruct (IH a Hab) as (l1' & l2' & E & Hc).
      exists (e :: l1'), l2'. split; [cbn; f_equal; exact E|].
      destruct Hc as [[Hr ->]|[-> Hr]]; [left|right]; split; auto.
      destruct Hr as [u p q v]. apply (Reorder1 (e :: u) p q v).
Qed.

Lemma reorders_fence l1 l2 l' : reorders (l1 ++ MFence :: l2) l' ->
  exists l1' l2', l' = l1' ++ MFence :: l2' /\ reorders l1 l1' /\ reorders l2 l2'.
Proof.
  intros H. remember (l1 ++ MFence :: l2) as l eqn:E. revert l1 l2 E.
  induction H as [l|l m l' Hs _ IH]; intros l1 l2 ->.
  - exists l1, l2. split; [reflexivity|]. split; apply rtc_refl.
  - destruct (reorder1_fence _ _ _ Hs) as (a & b & -> & Hc).
    destruct (IH a b eq_refl) as (l1' & l2' & -> & H1 & H2). exists l1', l2'. split; [reflexivity|].
    destruct Hc as [[Hr ->]|[-> Hr]]; split; auto; eapply rtc_l; eassumption.
Qed.

Lemma reorders_perm l l' : reorders l l' -> Permutation l l'.
Proof.
  induction 1 as [|l m l' Hs _ IH]; [reflexivity|]. rewrite <- IH. destruct Hs as [a x y b].
  apply Permutation_app_head. apply perm_swap.
Qed.

Lemma reorders_singleton x l : reorders [x] l -> l = [x].
Proof. intros H. apply reorders_perm in H. apply Permutation_singleton_l in H. congruence. Qed.

Lemma full_fences loc earlier later l' : reorders (earlier ++ at_loc loc [Fence; Access; Fence] ++ later) l' ->
  exists e' la', l' = e' ++ at_loc loc [Fence; Access; Fence] ++ la' /\ reorders earlier e' /\ reorders later la'.
Proof.
  cbn. intros H. apply reorders_fence in H as (e' & r & -> & He & Hr).
  apply (reorders_fence [MAcc loc] later) in Hr as (m & la' & -> & Hm & Hl).
  apply reorders_singleton in Hm as ->. exists e', la'. split; [reflexivity|]. auto.
Qed.

Lemma default_order_full_fence t o loc earlier later l' :
  (t = load_trace /\ o = seq_cst) \/ (t = store_trace /\ o = seq_cst) \/ (t = rmw_trace /\ (o = acq_rel \/ o = seq_cst)) ->
  reorders (earlier ++ at_loc loc (t o) ++ later) l' ->
  exists e' la', l' = e' ++ at_loc loc (t o) ++ la' /\ reorders earlier e' /\ reorders later la'.
Proof.
  intros [[-> ->]|[[-> ->]|[-> [-> | ->]]]]; apply full_fences.
Qed.

Lemma acquire_load_reorders : exists data flag l',
  data <> flag /\ reorders (at_loc flag (load_trace acquire) ++ [MAcc data]) l' /\ l' = [MFence; MAcc data; MAcc flag].
Proof.
  exists 1%nat, 2%nat, [MFence; MAcc 1; MAcc 2]. split; [lia|]. split; [|reflexivity].
  apply rtc_once. cbn. apply (Reorder1 [MFence] 2 1 []).
Qed.
Lemma release_store_reorders : exists data flag l',
  data <> flag /\ reorders ([MAcc data] ++ at_loc flag (store_trace release)) l' /\ l' = [MAcc flag; MAcc data; MFence].
Proof.
  exists 1%nat, 2%nat, [MAcc 2; MAcc 1; MFence]. split; [lia|]. split; [|reflexivity].
  apply rtc_once. cbn. apply (Reorder1 [] 1 2 [MFence]).
Qed.

(** ** what is stored *)
Lemma shiftr_range_unsigned w v : 0 <= w -> 0 <= v < 2 ^ w <-> Z.shiftr v w = 0.
Proof.
  intros Hw. rewrite Z.shiftr_div_pow2 by lia. pose proof (pow2_pos w ltac:(lia)).
  split; [apply Z.div_small|]. intros H0. pose proof (Z.div_mod v (2 ^ w) ltac:(lia)) as H1. rewrite H0 in H1.
  pose proof (Z.mod_pos_bound v (2 ^ w) ltac:(lia)). lia.
Qed.
Lemma shiftr_range_signed n v : 0 <= n -> - 2 ^ n <= v < 2 ^ n <-> Z.shiftr v n = 0 \/ Z.shiftr v n = -1.
Proof.
  intros Hn. rewrite Z.shiftr_div_pow2 by lia. pose proof (pow2_pos n ltac:(lia)).
  pose proof (Z.div_mod v (2 ^ n) ltac:(lia)) as H1. pose proof (Z.mod_pos_bound v (2 ^ n) ltac:(lia)).
  split; intros H2; [|destruct H2 as [H2|H2]; rewrite H2 in H1; lia].
  assert (v / 2 ^ n < 1) by (apply Z.div_lt_upper_bound; lia).
  assert (-1 <= v / 2 ^ n) by (apply Z.div_le_lower_bound; lia). lia.
Qed.
Lemma bitwise_in_range sg w f g a b : 0 < w ->
  (f = Z.land \/ f = Z.lor \/ f = Z.lxor) -> g = f a b -> in_range sg w a -> in_range sg w b -> in_range sg w g.
Proof.
  intros Hw Hf -> Ha Hb. destruct sg; cbn [in_range] in *.
  - apply shiftr_range_signed in Ha; [|lia]. apply shiftr_range_signed in Hb; [|lia]. apply shiftr_range_signed; [lia|].
    destruct Hf as [-> | [-> | ->]]; [rewrite Z.shiftr_land|rewrite Z.shiftr_lor|rewrite Z.shiftr_lxor];
      destruct Ha as [-> | ->], Hb as [-> | ->]; cbn; auto.
  - apply shiftr_range_unsigned in Ha; [|lia]. apply shiftr_range_unsigned in Hb; [|lia]. apply shiftr_range_unsigned; [lia|].
    destruct Hf as [-> | [-> | ->]]; [rewrite Z.shiftr_land|rewrite Z.shiftr_lor|rewrite Z.shiftr_lxor]; rewrite Ha, Hb; reflexivity.
Qed.
Lemma wrap_congr w x : 0 < w -> (wrap w x - x) mod 2 ^ w = 0.
Proof.
  intros Hw. unfold wrap. pose proof (pow2_pos w ltac:(lia)). rewrite Zminus_mod_idemp_l. rewrite Z.sub_diag. apply Z.mod_0_l. lia.
Qed.
Lemma swrap_congr w x : 0 < w -> (swrap w x - x) mod 2 ^ w = 0.
Proof.
  intros Hw. unfold swrap. pose proof (pow2_pos w ltac:(lia)).
  replace (_ - _) with ((x + 2 ^ (w - 1)) mod 2 ^ w - (x + 2 ^ (w - 1))) by lia.
  rewrite Zminus_mod_idemp_l. rewrite Z.sub_diag. apply Z.mod_0_l. lia.
Qed.
Lemma swrap_range w x : 0 < w -> in_range true w (swrap w x).
Proof.
  intros Hw. unfold swrap, in_range. pose proof (pow2_pos w ltac:(lia)).
  pose proof (Z.mod_pos_bound (x + 2 ^ (w - 1)) (2 ^ w) ltac:(lia)).
  assert (2 ^ w = 2 * 2 ^ (w - 1)) by (rewrite <- Z.pow_succ_r by lia; f_equal; lia). lia.
Qed.
Lemma wrap_range w x : 0 < w -> in_range false w (wrap w x).
Proof. intros Hw. unfold wrap, in_range. pose proof (pow2_pos w ltac:(lia)). apply Z.mod_pos_bound. lia. Qed.

Lemma operation_stores sg w op old : 0 < w -> in_range sg w old -> args_in_range sg w op -> stores sg w op old (cell_value sg w op old).
Proof.
  intros Hw Ho Ha. unfold stores.
  destruct op; cbn [args_in_range] in Ha.
  1-3: destruct sg; cbn [cell_value new_value_signed new_value]; split; auto.
  - destruct Ha as [He Hd]. replace (cell_value sg w (ACas expected desired) old) with (if old =? expected then desired else old) by (destruct sg; reflexivity).
    destruct (old =? expected) eqn:E; (split; [assumption|]); split; intros; lia || reflexivity.
  - destruct sg; cbn [cell_value new_value_signed new_value]; (split; [apply swrap_range || apply wrap_range; lia|]); [apply swrap_congr|apply wrap_congr]; lia.
  - destruct sg; cbn [cell_value new_value_signed new_value]; (split; [apply swrap_range || apply wrap_range; lia|]); [apply swrap_congr|apply wrap_congr]; lia.
  - replace (cell_value sg w (AAnd arg) old) with (Z.land old arg) by (destruct sg; reflexivity).
    split; [exact (bitwise_in_range sg w Z.land _ old arg Hw (or_introl eq_refl) eq_refl Ho Ha)|]. intros i Hi. apply Z.land_spec.
  - replace (cell_value sg w (AOr arg) old) with (Z.lor old arg) by (destruct sg; reflexivity).
    split; [exact (bitwise_in_range sg w Z.lor _ old arg Hw (or_intror (or_introl eq_refl)) eq_refl Ho Ha)|]. intros i Hi. apply Z.lor_spec.
  - replace (cell_value sg w (AXor arg) old) with (Z.lxor old arg) by (destruct sg; reflexivity).
    split; [exact (bitwise_in_range sg w Z.lxor _ old arg Hw (or_intror (or_intror eq_refl)) eq_refl Ho Ha)|]. intros i Hi. apply Z.lxor_spec.
  - replace (cell_value sg w (AMin arg) old) with (if arg <? old then arg else old) by (destruct sg; reflexivity).
    destruct (arg <? old) eqn:E; (split; [assumption|lia]).
  - replace (cell_value sg w (AMax arg) old) with (if old <? arg then arg else old) by (destruct sg; reflexivity).
    destruct (old <? arg) eqn:E; (split; [assumption|lia]).
  - destruct Ha as [-> Hm]. cbn [cell_value in_range] in *. split.
    + cbn [new_value]. unfold backend_inc_mod. destruct (_ <=? _); [lia|]. apply (wrap_range w). lia.
    + intros Hlt. apply inc_mod_spec; lia.
  - destruct Ha as [-> Hm]. cbn [cell_value in_range] in *. split.
    + cbn [new_value]. unfold backend_dec_mod. destruct (_ || _); apply (wrap_range w); lia.
    + intros Hlt. apply dec_mod_spec; lia.
Qed.

Lemma operator_results sg w o old : 0 < w -> in_range sg w old -> operator_arg_in_range sg w o ->
  operator_means sg w o old (cell_value sg w (operator_fetch o) old) (operator_result sg w o old).
Proof.
  intros Hw Ho Ha.
  assert (H1 : stores sg w (AAdd 1) old (cell_value sg w (AAdd 1) old)).
  { destruct sg; unfold stores, cell_value; cbn [new_value_signed new_value]; (split; [apply swrap_range || apply wrap_range; lia|]); [apply swrap_congr|apply wrap_congr]; lia. }
  assert (H2 : stores sg w (ASub 1) old (cell_value sg w (ASub 1) old)).
  { destruct sg; unfold stores, cell_value; cbn [new_value_signed new_value]; (split; [apply swrap_range || apply wrap_range; lia|]); [apply swrap_congr|apply wrap_congr]; lia. }
  destruct o; cbn [operator_means operator_fetch operator_arg_in_range] in *.
  1-4: split; [assumption|destruct sg; reflexivity].
  1-5: split; [apply operation_stores; assumption|destruct sg; reflexivity].
  destruct sg; split; reflexivity.
Qed.
