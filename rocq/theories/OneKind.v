(** Kernels in which every call is a push, or every call is a pop: no call ever waits for another one, so every
    execution, also one whose wavefronts run their lanes one after the other, ends after a bounded number of steps. *)
From Verif Require Import Base Conc AtomicModel SlotModel SlotSpec SlotProofs VectorModel VectorSpec VectorProofs VectorConcProofs DequeModel DequeSpec DequeProofs DequeConcProofs.

Local Arguments pushed_by : simpl never.
Local Arguments popped_by : simpl never.

Section onekind.
  Context {T C : Type} (ctl : C -> qkind -> nat -> cres C) (cap : nat).
  Context (m : C -> nat -> Z) (cok : C -> Prop).
  Hypothesis Hctl : forall c k n, cok c -> (n <= 2)%nat ->
    match ctl c k n with
    | CGo c' n' => cok c' /\ (n < n' <= 2)%nat /\ forall s, (s < cap)%nat -> m c' s = m c s
    | CReject => True
    | COob c' => cok c' /\ forall s, (s < cap)%nat -> m c' s = m c s
    | CClaim c' p => cok c' /\ (p < cap)%nat /\
        forall s, (s < cap)%nat -> m c' s = m c s + (if is_push k then at_ s p else - at_ s p)
    end.
  Context (kd : bool).
  Notation step := (qstep (T:=T) ctl).
  Notation inv := (inv (T:=T) (C:=C) cap m cok).

  Definition sk (t : qthread T) : Prop := forall op, op ∈ q_prog t -> is_push (kind_of op) = kd.
  Definition nice (s : qshared T C) (t : qthread T) : Prop :=
    sk t /\ match q_pc t with QUnlock p None => False | QUnlock p (Some _) => lk (q_occ s) p = kd | _ => True end.
  Definition stage2 (pc : qpc T) : nat :=
    match pc with
    | QIdle => 0 | QCtl n => S n | QTry _ => 4 | QCheck _ => 5 | QConstruct _ | QReset _ => 6 | QSet _ | QRead _ => 7
    | QDestroy _ _ => 8 | QUnlock _ _ => 9
    end%nat.
  Definition mu2 (t : qthread T) : Z := 10 * Z.of_nat (length (q_prog t)) - Z.of_nat (stage2 (q_pc t)).

  Lemma mu2_nonneg t : tok cap t -> 0 <= mu2 t.
  Proof.
    intros [_ H]. unfold mu2. destruct (q_prog t) as [|op rest] eqn:E.
    - unfold pushing in H. rewrite E in H. destruct (q_pc t) as [|n|p|p|p|p|p|p|p y|p [r|]]; cbn [stage2 length]; try lia;
        exfalso; destruct H as [? H]; try discriminate; try congruence; destruct H; congruence.
    - cbn [length]. destruct (q_pc t) as [|n|p|p|p|p|p|p|p y|p r]; cbn [stage2]; lia.
  Qed.

  Lemma sk_pushing t op rest : tok cap t -> sk t -> q_prog t = op :: rest -> pushing t = kd.
  Proof.
    intros [H _] K E. pose proof (H op ltac:(rewrite E; left)) as W. pose proof (K op ltac:(rewrite E; left)) as K1.
    unfold pushing. rewrite E. destruct op as [k x|k]; cbn in *; congruence.
  Qed.

  Lemma wanting w0 s ls i t p : inv w0 s ls -> (forall p, (p < cap)%nat -> 0 <= m (q_c s) p <= 1) -> (forall t, t ∈ ls -> nice s t) ->
    ls !! i = Some t -> q_prog t <> [] -> q_pc t = QTry p \/ q_pc t = QCheck p ->
    lk (q_occ s) p = negb kd /\ (q_pc t = QTry p -> lk (q_locks s) p = false).
  Proof.
    intros I Hr Hn Hi Hne Hpc. assert (Hin : t ∈ ls) by (eapply elem_of_list_lookup_2; exact Hi).
    pose proof (i_tok _ _ _ _ _ _ I t Hin) as Ht.
    assert (Hp : (p < cap)%nat). { destruct Ht as [_ Ht]. destruct Hpc as [Hpc|Hpc]; rewrite Hpc in Ht; apply Ht. }
    assert (Hpu : pushing t = kd).
    { destruct (q_prog t) as [|op rest] eqn:E; [congruence|]. exact (sk_pushing t op rest Ht (proj1 (Hn t Hin)) E). }
    (* the other side is empty *)
    assert (Hall : forall t0, t0 ∈ ls -> (if kd then pq p t0 else pp p t0) = 0).
    { intros t0 H0. pose proof (i_tok _ _ _ _ _ _ I t0 H0) as T0. pose proof (Hn t0 H0) as [K0 P0].
      destruct (q_prog t0) as [|op rest] eqn:E0.
      - destruct T0 as [_ T0]. unfold pp, pq, pushing in *. rewrite E0 in *.
        destruct (q_pc t0) as [|n|q|q|q|q|q|q|q y|q [r|]]; destruct kd; try reflexivity; exfalso; destruct T0 as [? T0]; try discriminate; try congruence;
          destruct T0; congruence.
      - pose proof (sk_pushing t0 op rest T0 K0 E0) as X. unfold pp, pq. rewrite X.
        destruct kd, (q_pc t0) as [|n|q|q|q|q|q|q|q y|q [r|]]; reflexivity. }
    pose proof (i_net _ _ _ _ _ _ I p Hp) as HN. pose proof (Hr p Hp) as R.
    (* sums of the claims of p *)
    assert (Hwant : (if kd then pp p t else pq p t) = 1).
    { unfold pp, pq. rewrite Hpu. destruct Hpc as [Hpc|Hpc]; rewrite Hpc; destruct kd; apply at_same. }
    assert (Hocc : lk (q_occ s) p = negb kd /\ forall j t0, j <> i -> ls !! j = Some t0 -> (if kd then pp p t0 else pq p t0) = 0).
    { destruct kd.
      - rewrite (sumZ_zero (pq p) ls Hall) in HN.
        pose proof (sumZ_ge_elem (pp p) ls i t (fun l _ => pp_nonneg p l) Hi) as G.
        split; [destruct (lk (q_occ s) p); [cbn [Z.b2z] in HN; lia|reflexivity]|].
        intros j t0 Hj H0. pose proof (sumZ_ge_two (pp p) ls i j t t0 (fun l _ => pp_nonneg p l) (not_eq_sym Hj) Hi H0) as G2.
        pose proof (pp_nonneg p t0). destruct (lk (q_occ s) p); cbn [Z.b2z] in HN; lia.
      - rewrite (sumZ_zero (pp p) ls Hall) in HN.
        pose proof (sumZ_ge_elem (pq p) ls i t (fun l _ => pq_nonneg p l) Hi) as G.
        split; [destruct (lk (q_occ s) p); [reflexivity|cbn [Z.b2z] in HN; lia]|].
        intros j t0 Hj H0. pose proof (sumZ_ge_two (pq p) ls i j t t0 (fun l _ => pq_nonneg p l) (not_eq_sym Hj) Hi H0) as G2.
        pose proof (pq_nonneg p t0). destruct (lk (q_occ s) p); cbn [Z.b2z] in HN; lia. }
    destruct Hocc as [Ho Hu]. split; [exact Ho|]. intros Ht1.
    destruct (lk (q_locks s) p) eqn:El; [exfalso|reflexivity].
    pose proof (i_lock _ _ _ _ _ _ I p Hp) as HL. rewrite El in HL. cbn [Z.b2z] in HL.
    destruct (sumZ_pos_witness (incs p) ls (fun l _ => incs_nonneg p l) ltac:(lia)) as (j & t0 & Hj & Hpos).
    assert (Hji : j <> i). { intros ->. rewrite Hi in Hj. injection Hj as <-. unfold incs in Hpos. rewrite Ht1 in Hpos. lia. }
    pose proof (elem_of_list_lookup_2 _ _ _ Hj) as Hin0. pose proof (Hu j t0 Hji Hj) as Z0. pose proof (incs_pos t0 p Hpos) as Hcs.
    pose proof (i_tok _ _ _ _ _ _ I t0 Hin0) as T0. pose proof (Hn t0 Hin0) as [K0 P0]. pose proof (i_loc _ _ _ _ _ _ I t0 Hin0) as L0.
    assert (Hne0 : q_prog t0 <> []).
    { destruct T0 as [_ T0]. unfold csp in Hcs. destruct (q_pc t0) as [|n|q|q|q|q|q|q|q y|q [r|]]; try discriminate; try apply T0;
        intros E; unfold pushing in T0; rewrite E in T0; destruct T0; discriminate. }
    destruct (q_prog t0) as [|op rest] eqn:E0; [congruence|]. pose proof (sk_pushing t0 op rest T0 K0 E0) as X.
    destruct T0 as [_ T0]. unfold pp, pq, local_ok, csp in *.
    destruct (q_pc t0) as [|n|q|q|q|q|q|q|q y|q [r|]]; try discriminate; injection Hcs as ->; rewrite ?X, ?at_same in *;
      destruct kd; cbn in *; try lia; try congruence; try (destruct T0 as (_ & _ & T0); congruence); try (destruct T0 as (_ & T0); congruence).
  Qed.

  Lemma one_step w0 s ls i t s' t' : inv w0 s ls -> (forall p, (p < cap)%nat -> 0 <= m (q_c s) p <= 1) -> (forall t, t ∈ ls -> nice s t) ->
    ls !! i = Some t -> step i s t = Some (s', t') ->
    mu2 t' < mu2 t /\ (forall t0, t0 ∈ <[i := t']> ls -> nice s' t0).
  Proof.
    intros I Hr Hn Hi Hst. assert (Hin : t ∈ ls) by (eapply elem_of_list_lookup_2; exact Hi).
    pose proof (i_tok _ _ _ _ _ _ I t Hin) as Ht. pose proof (Hn t Hin) as [K P]. pose proof (i_len _ _ _ _ _ _ I) as (L1 & L2 & L3).
    pose proof (i_cok _ _ _ _ _ _ I) as Hc.
    assert (Hown : mu2 t' < mu2 t /\ nice s' t' /\ forall p, (p < cap)%nat -> incs p t = 0 -> lk (q_occ s') p = lk (q_occ s) p).
    { pose proof (wanting w0 s ls i t) as W. unfold qstep in Hst. destruct (q_prog t) as [|op rest] eqn:Epr; [discriminate|].
      pose proof (sk_pushing t op rest Ht K Epr) as Hpu.
      assert (Kt : forall r, sk (finish t r)). { intros r o Ho. apply K. cbn in Ho. rewrite Epr in *. right. exact Ho. }
      assert (Hps : kd = match op with QPush _ _ => true | _ => false end) by (rewrite <- Hpu; unfold pushing; rewrite Epr; destruct op; reflexivity).
      destruct Ht as [_ Ht]. unfold mu2. rewrite Epr.
      assert (Hgo : forall pc s1, s' = s1 -> t' = goto t pc -> q_occ s1 = q_occ s -> (stage2 (q_pc t) < stage2 pc)%nat ->
        match pc with QUnlock p None => False | QUnlock p (Some _) => lk (q_occ s) p = kd | _ => True end ->
        10 * Z.of_nat (length (q_prog t')) - Z.of_nat (stage2 (q_pc t')) < 10 * Z.of_nat (length (op :: rest)) - Z.of_nat (stage2 (q_pc t)) /\
        nice s' t' /\ forall p, (p < cap)%nat -> incs p t = 0 -> lk (q_occ s') p = lk (q_occ s) p).
      { intros pc s1 -> -> Eo Hlt Hpc. cbn [goto q_prog q_pc]. rewrite Epr. split; [lia|]. split; [split; [exact K|cbn [goto q_pc]; rewrite Eo; exact Hpc]|].
        intros p _ _. rewrite Eo. reflexivity. }
      assert (Hfin : forall r s1, s' = s1 -> t' = finish t r -> q_occ s1 = q_occ s -> (stage2 (q_pc t) <= 9)%nat ->
        10 * Z.of_nat (length (q_prog t')) - Z.of_nat (stage2 (q_pc t')) < 10 * Z.of_nat (length (op :: rest)) - Z.of_nat (stage2 (q_pc t)) /\
        nice s' t' /\ forall p, (p < cap)%nat -> incs p t = 0 -> lk (q_occ s') p = lk (q_occ s) p).
      { intros r s1 -> -> Eo Hlt. cbn [finish q_prog q_pc stage2]. rewrite Epr. cbn [tail length]. split; [lia|]. split; [split; [apply Kt|exact Logic.I]|].
        intros p _ _. rewrite Eo. reflexivity. }
      destruct (q_pc t) as [|n|p|p|p|p|p|p|p y|p r] eqn:Epc.
      - injection Hst as <- <-. eapply Hgo; try reflexivity; cbn; lia.
      - destruct Ht as [Hn2 _]. pose proof (Hctl (q_c s) (kind_of op) n Hc Hn2) as Hk.
        destruct (ctl (q_c s) (kind_of op) n) as [c' n'| |c'|c' p]; injection Hst as <- <-.
        + eapply Hgo; try reflexivity; cbn; lia.
        + eapply Hfin; try reflexivity; cbn; lia.
        + eapply Hfin; try reflexivity; cbn; lia.
        + eapply Hgo; try reflexivity; cbn; lia.
      - destruct (W p I Hr Hn Hi ltac:(discriminate) ltac:(left; reflexivity)) as [_ Wl]. specialize (Wl eq_refl).
        destruct Ht as [Hp _]. rewrite (lk_Some (q_locks s) p) in Hst by lia. rewrite Wl in Hst. injection Hst as <- <-.
        eapply Hgo; try reflexivity; cbn; lia.
      - destruct (W p I Hr Hn Hi ltac:(discriminate) ltac:(right; reflexivity)) as [Wo _].
        destruct Ht as [Hp _]. rewrite (lk_Some (q_occ s) p) in Hst by lia. rewrite Wo, Hps in Hst.
        destruct op; cbn in Hst; injection Hst as <- <-; (eapply Hgo; try reflexivity; cbn; lia).
      - destruct op; [|discriminate]. injection Hst as <- <-. eapply Hgo; try reflexivity; cbn; lia.
      - destruct op as [k x|]; [|discriminate]. injection Hst as <- <-. destruct Ht as [Hp _]. cbn [goto q_prog q_pc stage2]. rewrite Epr. split; [lia|].
        cbn [with_occ q_occ]. split; [split; [exact K|]|].
        + cbn. rewrite lk_insert by lia. rewrite decide_True by reflexivity. congruence.
        + intros q Hq Hz. rewrite lk_insert by lia. unfold incs in Hz. rewrite Epc in Hz. unfold at_ in Hz. destruct (decide (q = p)); [lia|reflexivity].
      - injection Hst as <- <-. destruct Ht as [Hp _]. cbn [goto q_prog q_pc stage2]. rewrite Epr. split; [lia|].
        cbn [with_occ q_occ]. split; [split; [exact K|exact Logic.I]|].
        intros q Hq Hz. rewrite lk_insert by lia. unfold incs in Hz. rewrite Epc in Hz. unfold at_ in Hz. destruct (decide (q = p)); [lia|reflexivity].
      - destruct (q_data s !! p) as [[y|]|]; try discriminate. injection Hst as <- <-. eapply Hgo; try reflexivity; cbn; lia.
      - injection Hst as <- <-. pose proof (i_loc _ _ _ _ _ _ I t Hin) as Hl. unfold local_ok in Hl. rewrite Epc in Hl. destruct Hl as [Hl _].
        destruct Ht as (_ & _ & Ht). eapply Hgo; try reflexivity; try (cbn; lia); congruence.
      - destruct r as [r|]; [|contradiction]. injection Hst as <- <-. eapply Hfin; try reflexivity; cbn; lia. }
    destruct Hown as (H1 & H2 & H3). split; [exact H1|]. intros t0 H0. apply elem_of_list_lookup in H0 as [j Hj].
    assert (Hlt : (i < length ls)%nat) by (eapply lookup_lt_Some; exact Hi).
    destruct (decide (i = j)) as [<-|Hij].
    - rewrite list_lookup_insert in Hj by exact Hlt. injection Hj as <-. exact H2.
    - rewrite list_lookup_insert_ne in Hj by exact Hij. pose proof (elem_of_list_lookup_2 _ _ _ Hj) as Hin0.
      destruct (Hn t0 Hin0) as [K0 P0]. split; [exact K0|]. destruct (q_pc t0) as [|n|p|p|p|p|p|p|p y|p [r|]] eqn:E0; auto.
      pose proof (i_tok _ _ _ _ _ _ I t0 Hin0) as [_ T0]. rewrite E0 in T0. destruct T0 as [Hp _].
      rewrite H3; [exact P0|exact Hp|]. pose proof (excl cap m cok w0 s ls i j t t0 p I Hp Hij Hi Hj) as X. unfold incs at 2 in X. rewrite E0, at_same in X.
      pose proof (incs_nonneg p t). lia.
  Qed.

  (** ** bounded executions *)
  Context (w0 : (T -> Z) -> Z) (s0 : qshared T C) (ls0 : list (qthread T)).
  Hypothesis I0 : inv w0 s0 ls0.
  Hypothesis Hrng : forall s ls, reach step (s0, ls0) (s, ls) -> forall p, (p < cap)%nat -> 0 <= m (q_c s) p <= 1.
  Hypothesis Hsk : forall t, t ∈ ls0 -> sk t /\ q_pc t = QIdle.

  Lemma nice_reach s ls : reach step (s0, ls0) (s, ls) -> forall t, t ∈ ls -> nice s t.
  Proof using Hctl I0 Hrng Hsk.
    intros R. pose (P := fun c : qshared T C * list (qthread T) => reach step (s0, ls0) c /\ forall t, t ∈ c.2 -> nice c.1 t).
    enough (H : P (s, ls)) by exact (proj2 H).
    refine (rtc_ind_r (R := cstep step) P (s0, ls0) _ _ (s, ls) R).
    - split; [apply rtc_refl|]. intros t Ht. destruct (Hsk t Ht) as [K E]. split; [exact K|]. rewrite E. exact Logic.I.
    - intros c c' R1 Hs [_ N]. split; [eapply rtc_r; eassumption|]. destruct Hs as [s1 ls1 i t s2 t2 Hi Hst]. cbn [fst snd] in *.
      pose proof (inv_reach ctl cap m cok Hctl w0 s0 ls0 s1 ls1 I0 R1) as I1.
      exact (proj2 (one_step w0 s1 ls1 i t s2 t2 I1 (Hrng _ _ R1) N Hi Hst)).
  Qed.

  Definition okr (r : qres T) : Prop := match r with Pushed _ => kd = true | Popped _ => kd = false | _ => True end.
  Lemma logs_reach s ls : reach step (s0, ls0) (s, ls) -> (forall t, t ∈ ls0 -> q_log t = []) -> forall t r, t ∈ ls -> r ∈ q_log t -> okr r.
  Proof using Hctl I0 Hrng Hsk.
    intros R H0. pose (P := fun c : qshared T C * list (qthread T) => forall t r, t ∈ c.2 -> r ∈ q_log t -> okr r).
    refine (rtc_ind_r (R := cstep step) P (s0, ls0) _ _ (s, ls) R).
    - intros t r Ht Hr. cbn in Ht. rewrite (H0 t Ht) in Hr. inversion Hr.
    - intros c c' R1 Hs N. destruct Hs as [s1 ls1 i t s2 t2 Hi Hst]. intros t0 r Ht0 Hr. cbn [fst snd] in *.
      pose proof (inv_reach ctl cap m cok Hctl w0 s0 ls0 s1 ls1 I0 R1) as I1. pose proof (nice_reach s1 ls1 R1) as N1.
      assert (Hin : t ∈ ls1) by (eapply elem_of_list_lookup_2; exact Hi).
      assert (Hlt : (i < length ls1)%nat) by (eapply lookup_lt_Some; exact Hi).
      assert (Hold : forall r, r ∈ q_log t -> okr r) by (intros r1; exact (N t r1 Hin)).
      apply elem_of_list_lookup in Ht0 as [j Hj]. destruct (decide (i = j)) as [<-|Hij].
      2:{ rewrite list_lookup_insert_ne in Hj by exact Hij. exact (N t0 r (elem_of_list_lookup_2 _ _ _ Hj) Hr). }
      rewrite list_lookup_insert in Hj by exact Hlt. injection Hj as <-.
      pose proof (i_tok _ _ _ _ _ _ I1 t Hin) as Ht. unfold qstep in Hst. destruct (q_prog t) as [|op rest] eqn:Epr; [discriminate|].
      pose proof (sk_pushing t op rest Ht (proj1 (N1 t Hin)) Epr) as Hpu. destruct Ht as [_ Ht].
      assert (Hf : forall r1, r ∈ q_log (finish t r1) -> okr r1 -> okr r).
      { intros r1 X Y. cbn in X. apply elem_of_app in X as [X|X]; [auto|]. apply elem_of_list_singleton in X as ->. exact Y. }
      destruct (q_pc t) as [|n|p|p|p|p|p|p|p y|p r1] eqn:Epc.
      + injection Hst as <- <-. auto.
      + destruct (ctl (q_c s1) (kind_of op) n); injection Hst as <- <-; auto; (eapply Hf; [exact Hr|exact Logic.I]).
      + destruct (q_locks s1 !! p) as [[]|]; try discriminate; injection Hst as <- <-; auto.
      + destruct (q_occ s1 !! p) as [[]|]; try discriminate; destruct op; injection Hst as <- <-; auto.
      + destruct op; [|discriminate]; injection Hst as <- <-; auto.
      + destruct op; [|discriminate]; injection Hst as <- <-; auto.
      + injection Hst as <- <-. auto.
      + destruct (q_data s1 !! p) as [[y|]|]; try discriminate; injection Hst as <- <-; auto.
      + injection Hst as <- <-. auto.
      + destruct r1 as [r1|]; injection Hst as <- <-; [|auto]. eapply Hf; [exact Hr|]. destruct Ht as (_ & _ & Ht). destruct r1; cbn; try exact Logic.I.
        * destruct Ht as (k & rest' & E). rewrite <- Hpu. unfold pushing. rewrite E. reflexivity.
        * congruence.
  Qed.

  Lemma hip_reach wave c c' : rtc (hip_step ctl wave) c c' -> reach step c c'.
  Proof. clear. induction 1 as [|c c1 c2 H _ IH]; [apply rtc_refl|]. eapply rtc_l; [|exact IH]. destruct H. econstructor; eassumption. Qed.

  Lemma bounded wave k s ls : nsteps (hip_step ctl wave) k (s0, ls0) (s, ls) -> Z.of_nat k + sumZ mu2 ls <= sumZ mu2 ls0.
  Proof using Hctl I0 Hrng Hsk.
    revert s ls. induction k as [|k IH]; intros s ls H.
    - inversion H; subst. lia.
    - apply nsteps_inv_r in H as ([s1 ls1] & H1 & H2). specialize (IH s1 ls1 H1). inversion H2 as [s2 ls2 i t s3 t3 Hi _ Hst]; subst.
      assert (R1 : reach step (s0, ls0) (s1, ls1)) by (eapply hip_reach, rtc_nsteps_2; exact H1).
      pose proof (inv_reach ctl cap m cok Hctl w0 s0 ls0 s1 ls1 I0 R1) as I1.
      pose proof (one_step w0 s1 ls1 i t s t3 I1 (Hrng _ _ R1) (nice_reach _ _ R1) Hi Hst) as [D _].
      rewrite (sumZ_insert _ _ _ _ _ Hi). lia.
  Qed.

  Lemma progress wave s ls : reach step (s0, ls0) (s, ls) -> finished ls \/ exists c', hip_step ctl wave (s, ls) c'.
  Proof using Hctl I0.
    intros R. pose proof (inv_reach ctl cap m cok Hctl w0 s0 ls0 s ls I0 R) as I.
    destruct (decide (Exists (fun t => q_prog t <> []) ls)) as [Hex|Hall].
    - right.
      (* a thread outside the loop can always step; otherwise the first thread inside the loop *)
      destruct (decide (Exists (fun t => in_loop_body t = true) ls)) as [Hin|Hout].
      + destruct (list_find (fun t => in_loop_body t = true) ls) as [[i t]|] eqn:Ef.
        * apply list_find_Some in Ef as (Hi & Hb & Hlow).
          assert (Hne : q_prog t <> []).
          { pose proof (i_tok _ _ _ _ _ _ I t (elem_of_list_lookup_2 _ _ _ Hi)) as [_ T0]. unfold in_loop_body in Hb.
            destruct (q_pc t) as [|n|q|q|q|q|q|q|q y|q [r|]]; try discriminate; try apply T0; intros E; unfold pushing in T0; rewrite E in T0; destruct T0; discriminate. }
          destruct (not_stuck ctl cap m cok _ _ _ _ _ I Hi Hne) as (s' & t' & E). exists (s', <[i := t']> ls). econstructor; [exact Hi| |exact E].
          intros t1 H1 _ j tj Hj _ Htj. pose proof (Hlow j tj Htj Hj) as X. destruct (in_loop_body tj); [exfalso; apply X; reflexivity|reflexivity].
        * exfalso. apply list_find_None in Ef. rewrite Forall_forall in Ef. apply Exists_exists in Hin as (t & Ht & Hb). exact (Ef t Ht Hb).
      + apply Exists_exists in Hex as (t & Ht & Hne). pose proof Ht as Hi. apply elem_of_list_lookup in Hi as [i Hi].
        destruct (not_stuck ctl cap m cok _ _ _ _ _ I Hi Hne) as (s' & t' & E). exists (s', <[i := t']> ls). econstructor; [exact Hi| |exact E].
        intros t1 H1 Hb. exfalso. apply Hout. apply Exists_exists. exists t1. split; [eapply elem_of_list_lookup_2; exact H1|exact Hb].
    - left. intros t Ht. assert (Hp : q_prog t = []).
      { destruct (q_prog t) eqn:E; [reflexivity|]. exfalso. apply Hall. apply Exists_exists. exists t. rewrite E. split; [exact Ht|discriminate]. }
      split; [exact Hp|]. pose proof (i_tok _ _ _ _ _ _ I t Ht) as [_ T0]. unfold pushing in T0. rewrite Hp in T0.
      destruct (q_pc t) as [|n|q|q|q|q|q|q|q y|q [r|]]; [reflexivity|..]; exfalso; destruct T0 as [? T0]; try congruence; destruct T0; congruence.
  Qed.
End onekind.

Lemma mu2_start {T} (progs : list (list (qop T))) : sumZ mu2 (q_start progs) = 10 * Z.of_nat (length (concat progs)).
Proof.
  induction progs as [|p progs IH]; [reflexivity|]. change (q_start (p :: progs)) with ({| q_prog := p; q_pc := QIdle; q_log := [] |} :: q_start progs).
  rewrite sumZ_cons, IH. cbn [concat]. rewrite app_length. unfold mu2. cbn [q_prog q_pc stage2]. lia.
Qed.

(** ** which calls succeed: a call is granted its element when the size counter says so, and is turned down only when
    there is none left *)
Section granted.
  Context {T C : Type} (ctl : C -> qkind -> nat -> cres C) (okc : qop T -> Prop) (side : C -> Prop) (pend : nat -> bool) (room : C -> Z).
  Hypothesis Hroom : forall c, 0 <= room c.
  Hypothesis Hpend0 : pend 0 = false.
  Hypothesis Hcnt : forall c (op : qop T) n, okc op -> side c ->
    match ctl c (kind_of op) n with
    | CGo c' n' => side c' /\ room c' <= room c /\ room c' = room c - Z.b2z (pend n') + Z.b2z (pend n)
    | CReject => room c = 0 /\ pend n = false
    | COob c' => side c' /\ room c = 0 /\ room c' = 0 /\ pend n = false
    | CClaim c' _ => side c' /\ room c' <= room c /\ room c' = room c - 1 + Z.b2z (pend n)
    end.
  Notation step := (qstep (T:=T) ctl).

  Definition succ (r : qres T) : Z := match r with Pushed _ | Popped _ => 1 | _ => 0 end.
  Definition granted (t : qthread T) : Z :=
    sumZ succ (q_log t) + match q_pc t with QIdle => 0 | QCtl n => Z.b2z (pend n) | _ => 1 end.
  Definition turned (t : qthread T) : Prop := Refused ∈ q_log t \/ OutOfBounds ∈ q_log t.

  Record ginv (N : Z) (r0 : Z) (s : qshared T C) (ls : list (qthread T)) : Prop := {
    gi_side : side (q_c s);
    gi_ok : forall t op, t ∈ ls -> op ∈ q_prog t -> okc op;
    gi_room : room (q_c s) + sumZ granted ls = r0;
    gi_turn : (exists t, t ∈ ls /\ turned t) -> room (q_c s) = 0;
    gi_all : sumZ (fun t => Z.of_nat (length (q_log t)) + Z.of_nat (length (q_prog t))) ls = N;
    gi_unl : forall t p r, t ∈ ls -> q_pc t = QUnlock p (Some r) -> succ r = 1
  }.

  Lemma ginv_step N r0 s ls i t s' t' : ginv N r0 s ls -> ls !! i = Some t -> step i s t = Some (s', t') -> ginv N r0 s' (<[i := t']> ls).
  Proof.
    intros G Hi E. assert (Hin : t ∈ ls) by (eapply elem_of_list_lookup_2; exact Hi).
    assert (Hlt : (i < length ls)%nat) by (eapply lookup_lt_Some; exact Hi).
    assert (Hgen : side (q_c s') -> (forall op, op ∈ q_prog t' -> okc op) -> room (q_c s') + granted t' = room (q_c s) + granted t ->
      room (q_c s') <= room (q_c s) -> (turned t' -> turned t \/ room (q_c s') = 0) ->
      (length (q_log t') + length (q_prog t') = length (q_log t) + length (q_prog t))%nat ->
      (forall p r, q_pc t' = QUnlock p (Some r) -> succ r = 1) -> ginv N r0 s' (<[i := t']> ls)).
    { intros A B D F H J L.
      assert (Hc : forall t0, t0 ∈ <[i := t']> ls -> t0 = t' \/ t0 ∈ ls).
      { intros t0 H0. apply elem_of_list_lookup in H0 as [j Hj]. destruct (decide (i = j)) as [<-|Hij].
        - rewrite list_lookup_insert in Hj by exact Hlt. left. congruence.
        - rewrite list_lookup_insert_ne in Hj by exact Hij. right. eapply elem_of_list_lookup_2; exact Hj. }
      split.
      - exact A.
      - intros t0 op H0. destruct (Hc t0 H0) as [-> |H1]; [apply B|]. intros Ho. exact (gi_ok _ _ _ _ G t0 op H1 Ho).
      - rewrite (sumZ_insert _ _ _ _ _ Hi). pose proof (gi_room _ _ _ _ G). lia.
      - intros (t0 & H0 & T0). pose proof (Hroom (q_c s')).
        destruct (Hc t0 H0) as [-> |Hq].
        + destruct (H T0) as [X|X]; [|exact X]. pose proof (gi_turn _ _ _ _ G ltac:(exists t; auto)). lia.
        + pose proof (gi_turn _ _ _ _ G ltac:(exists t0; auto)). lia.
      - rewrite (sumZ_insert _ _ _ _ _ Hi). pose proof (gi_all _ _ _ _ G). lia.
      - intros t0 p r H0. destruct (Hc t0 H0) as [-> |H1]; [apply L|]. exact (gi_unl _ _ _ _ G t0 p r H1). }
    pose proof (gi_side _ _ _ _ G) as S0. pose proof (gi_unl _ _ _ _ G t) as U.
    unfold qstep in E. destruct (q_prog t) as [|op rest] eqn:Epr; [discriminate|].
    assert (Hok : forall o, o ∈ op :: rest -> okc o) by (intros o Ho; eapply (gi_ok _ _ _ _ G t o Hin); rewrite Epr; exact Ho).
    assert (Hok2 : forall pc o, o ∈ q_prog (goto t pc) -> okc o) by (intros pc o Ho; cbn in Ho; rewrite Epr in Ho; auto).
    assert (Hok3 : forall r o, o ∈ q_prog (finish t r) -> okc o) by (intros r o Ho; cbn in Ho; rewrite Epr in Ho; apply Hok; right; exact Ho).
    assert (Hln : forall r, (length (q_log (finish t r)) + length (q_prog (finish t r)) = length (q_log t) + length (op :: rest))%nat).
    { intros r. cbn [finish q_log q_prog]. rewrite Epr, app_length. cbn [tail length]. lia. }
    (* moving inside the call without touching the counters *)
    assert (Hmove : forall pc, t' = goto t pc -> q_c s' = q_c s -> granted (goto t pc) = granted t ->
      (forall p r, pc = QUnlock p (Some r) -> succ r = 1) -> ginv N r0 s' (<[i := t']> ls)).
    { intros pc -> Ec Eg Hu. apply Hgen.
      - rewrite Ec. exact S0.
      - apply Hok2.
      - rewrite Ec, Eg. lia.
      - rewrite Ec. lia.
      - left. assumption.
      - cbn. rewrite Epr. reflexivity.
      - exact Hu. }
    unfold granted in Hmove. cbn [goto q_log q_pc] in Hmove.
    destruct (q_pc t) as [|n|p|p|p|p|p|p|p y|p r] eqn:Epc.
    - injection E as <- <-. apply (Hmove (QCtl 0)); try reflexivity; [|discriminate]. rewrite Hpend0. reflexivity.
    - pose proof (Hcnt (q_c s) op n (Hok op ltac:(left)) S0) as Hk. pose proof (Hroom (q_c s)).
      destruct (ctl (q_c s) (kind_of op) n) as [c' n'| |c'|c' p]; injection E as <- <-; cbn [with_c q_c] in *.
      + destruct Hk as (A & B & D). apply Hgen; [exact A|exact (Hok2 _)| |exact B|intros X; left; exact X|cbn; rewrite ?Epr; reflexivity|discriminate].
        cbn [with_c q_c]. unfold granted. cbn [goto q_log q_pc]. rewrite Epc. lia.
      + destruct Hk as (A & B). apply Hgen; [exact S0|exact (Hok3 _)| |lia|intros _; right; exact A|rewrite ?Epr; apply Hln|discriminate].
        unfold granted. cbn [finish q_log q_pc]. rewrite Epc, sumZ_app, B. cbn. lia.
      + destruct Hk as (A & B & D & F). apply Hgen; [exact A|exact (Hok3 _)| |cbn [with_c q_c]; lia|intros _; right; exact D|rewrite ?Epr; apply Hln|discriminate].
        cbn [with_c q_c]. unfold granted. cbn [finish q_log q_pc]. rewrite Epc, sumZ_app, F. cbn. lia.
      + destruct Hk as (A & B & D). apply Hgen; [exact A|exact (Hok2 _)| |exact B|intros X; left; exact X|cbn; rewrite ?Epr; reflexivity|discriminate].
        cbn [with_c q_c]. unfold granted. cbn [goto q_log q_pc]. rewrite Epc. lia.
    - destruct (q_locks s !! p) as [[]|]; try discriminate; injection E as <- <-; [rewrite list_insert_id by exact Hi; exact G|].
      eapply Hmove; try reflexivity; discriminate.
    - destruct (q_occ s !! p) as [[]|]; try discriminate; destruct op; injection E as <- <-; (eapply Hmove; try reflexivity; discriminate).
    - destruct op; [|discriminate]. injection E as <- <-. eapply Hmove; try reflexivity; discriminate.
    - destruct op; [|discriminate]. injection E as <- <-. eapply Hmove; try reflexivity. intros ? ? [= _ <-]. reflexivity.
    - injection E as <- <-. eapply Hmove; try reflexivity; discriminate.
    - destruct (q_data s !! p) as [[y|]|]; try discriminate. injection E as <- <-. eapply Hmove; try reflexivity; discriminate.
    - injection E as <- <-. eapply Hmove; try reflexivity. intros ? ? [= _ <-]. reflexivity.
    - destruct r as [r|]; injection E as <- <-.
      + pose proof (U p r Hin eq_refl) as Hs. apply Hgen; [exact S0|exact (Hok3 _)| |cbn [with_lock q_c]; lia| |rewrite ?Epr; apply Hln|discriminate].
        * unfold granted. cbn [with_lock q_c finish q_log q_pc]. rewrite Epc, sumZ_app. cbn. rewrite Hs. lia.
        * unfold turned. cbn [finish q_log]. intros [H|H]; apply elem_of_app in H as [H|H]; auto; apply elem_of_list_singleton in H as <-; discriminate.
      + eapply Hmove; try reflexivity; discriminate.
  Qed.

  Lemma ginv_start s progs : side (q_c s) -> (forall p op, p ∈ progs -> op ∈ p -> okc op) ->
    ginv (Z.of_nat (length (concat progs))) (room (q_c s)) s (q_start progs).
  Proof.
    intros H Hok. assert (Hin : forall t, t ∈ q_start progs -> exists p, p ∈ progs /\ t = {| q_prog := p; q_pc := QIdle; q_log := [] |}).
    { intros t Ht. apply elem_of_list_fmap in Ht as (p & -> & Hp). eauto. }
    split.
    - exact H.
    - intros t op Ht. destruct (Hin t Ht) as (p & Hp & ->). exact (Hok p op Hp).
    - rewrite sumZ_zero; [lia|]. intros t Ht. destruct (Hin t Ht) as (p & Hp & ->). reflexivity.
    - intros (t & Ht & X). destruct (Hin t Ht) as (p & Hp & ->). destruct X as [X|X]; inversion X.
    - clear. induction progs as [|p progs IH]; [reflexivity|]. change (q_start (p :: progs)) with ({| q_prog := p; q_pc := QIdle; q_log := [] |} :: q_start progs).
      rewrite sumZ_cons, IH. cbn [concat q_log q_prog length]. rewrite app_length. lia.
    - intros t p r Ht. destruct (Hin t Ht) as (q & Hp & ->). discriminate.
  Qed.

  Lemma ginv_reach N r0 s ls s' ls' : ginv N r0 s ls -> reach step (s, ls) (s', ls') -> ginv N r0 s' ls'.
  Proof using Hroom Hpend0 Hcnt.
    intros G R. refine (invariant step (fun c => ginv N r0 c.1 c.2) _ (s, ls) (s', ls') G R).
    intros c c' Hc Hs. destruct Hs as [s1 ls1 i t s2 t2 Hi Hst]. cbn in *. eapply ginv_step; eauto.
  Qed.

  (** all calls done: exactly as many succeeded as could *)
  Lemma ginv_end N r0 s ls : ginv N r0 s ls -> finished ls -> sumZ (fun t => sumZ succ (q_log t)) ls = Z.min N r0.
  Proof using Hroom Hpend0.
    intros G F. pose proof (gi_room _ _ _ _ G) as R. pose proof (Hroom (q_c s)) as R0. pose proof (gi_all _ _ _ _ G) as A.
    rewrite (sumZ_ext granted (fun t => sumZ succ (q_log t))) in R.
    2:{ intros t Ht. unfold granted. destruct (F t Ht) as [_ ->]. lia. }
    rewrite (sumZ_ext _ (fun t => Z.of_nat (length (q_log t)))) in A.
    2:{ intros t Ht. destruct (F t Ht) as [-> _]. cbn. lia. }
    pose (bad := fun r : qres T => match r with Refused | OutOfBounds => 1 | _ => 0 end).
    assert (Hb : forall log, Z.of_nat (length log) = sumZ succ log + sumZ bad log).
    { clear. induction log as [|r log IH]; [reflexivity|]. rewrite !sumZ_cons. cbn [length]. destruct r; cbn [succ bad]; lia. }
    assert (Hb0 : forall log, 0 <= sumZ bad log) by (intros log; apply sumZ_nonneg; intros []; cbn; lia).
    rewrite (sumZ_ext _ (fun t => sumZ succ (q_log t) + sumZ bad (q_log t))), sumZ_add in A by (intros; apply Hb).
    assert (0 <= sumZ (fun t => sumZ bad (q_log t)) ls) by (apply sumZ_nonneg; auto).
    destruct (decide (0 < sumZ (fun t => sumZ bad (q_log t)) ls)) as [X|X]; [|lia].
    apply sumZ_pos_witness in X as (i & t & Hi & X); [|auto]. apply sumZ_pos_witness in X as (k & r & Hk & X); [|intros []; cbn; lia].
    assert (room (q_c s) = 0); [|lia]. apply (gi_turn _ _ _ _ G). exists t. split; [eapply elem_of_list_lookup_2; exact Hi|].
    apply elem_of_list_lookup_2 in Hk. destruct r; cbn in X; try lia; [left|right]; exact Hk.
  Qed.
End granted.

Lemma succ_length {T} (kd : bool) (ls : list (qthread T)) : finished ls -> (forall t r, t ∈ ls -> r ∈ q_log t -> okr kd r) ->
  Z.of_nat (length (if kd then all_pushed ls else all_popped ls)) = sumZ (fun t => sumZ succ (q_log t)) ls.
Proof.
  intros F Ho.
  assert (Hl : forall log : list (qres T), (forall r, r ∈ log -> okr kd r) -> Z.of_nat (length (if kd then pushed_by log else popped_by log)) = sumZ succ log).
  { induction log as [|r log IH]; intros H; [destruct kd; reflexivity|]. rewrite sumZ_cons, <- IH by (intros r1 H1; apply H; right; exact H1).
    pose proof (H r ltac:(left)) as Hr. unfold pushed_by, popped_by. destruct kd, r; cbn in *; try discriminate; lia. }
  assert (Hf : forall t : qthread T, t ∈ ls -> push_in_flight t = [] /\ pop_in_flight t = []).
  { intros t Ht. destruct (F t Ht) as [E1 E2]. unfold push_in_flight, pop_in_flight. rewrite E1, E2. auto. }
  clear F. induction ls as [|t ls IH]; [destruct kd; reflexivity|]. rewrite sumZ_cons, <- IH, <- Hl.
  - destruct (Hf t ltac:(left)) as [E1 E2]. unfold all_pushed, all_popped. destruct kd; cbn [mbind list_bind]; rewrite ?E1, ?E2, app_nil_r, app_length; lia.
  - intros r. apply Ho. left.
  - intros t0 r H0. apply Ho. right. exact H0.
  - intros t0 H0. apply Hf. right. exact H0.
Qed.

(** ** vector *)
Section vector.
  Context {T : Type} (cap : nat) (l : list T) (Hl : (length l <= cap)%nat) (kd : bool).
  Context (progs : list (list (qop T))) (Hwf : forall p op, p ∈ progs -> op ∈ p -> vector_call op /\ is_push (kind_of op) = kd).
  Notation start := (vec_conc_start cap l, q_start progs).

  Lemma vk_wf p op : p ∈ progs -> op ∈ p -> vector_call op.
  Proof using Hwf. intros H1 H2. exact (proj1 (Hwf p op H1 H2)). Qed.
  Lemma q_start_in (t : qthread T) : t ∈ q_start progs -> exists p, p ∈ progs /\ t = {| q_prog := p; q_pc := QIdle; q_log := [] |}.
  Proof using . intros Ht. apply elem_of_list_fmap in Ht as (p & -> & Hp). eauto. Qed.
  Lemma vk_sk t : t ∈ q_start progs -> sk kd t /\ q_pc t = QIdle.
  Proof using Hwf. intros Ht. destruct (q_start_in t Ht) as (p & Hp & ->). split; [|reflexivity]. intros op Ho. exact (proj2 (Hwf p op Hp Ho)). Qed.

  Notation I0 := (start_inv cap l Hl progs vk_wf).
  Notation Hrng := (fun s ls (_ : reach (qstep (vctl cap)) start (s, ls)) p (_ : (p < cap)%nat) => vm_range (q_c s) p).

  Lemma vec_same_kind_run wave k s ls : nsteps (hip_step (vctl cap) wave) k start (s, ls) ->
    (k <= 10 * length (concat progs))%nat /\ (finished ls \/ exists c', hip_step (vctl cap) wave (s, ls) c').
  Proof using Hl Hwf.
    intros H. split.
    - pose proof (bounded (vctl cap) cap vm (fun _ => True) (vctl_ok cap) kd _ _ _ I0 Hrng vk_sk wave k s ls H) as B. rewrite mu2_start in B.
      assert (0 <= sumZ mu2 ls); [|lia]. apply sumZ_nonneg. intros t Ht. eapply mu2_nonneg.
      refine (i_tok _ _ _ _ _ _ (reach_inv cap l Hl progs vk_wf s ls _) t Ht). eapply hip_reach, rtc_nsteps_2; exact H.
    - eapply (progress (vctl cap) cap vm (fun _ => True) (vctl_ok cap) _ _ _ I0). eapply hip_reach, rtc_nsteps_2; exact H.
  Qed.

  Definition vroom (c : Z) : Z := if kd then Z.max 0 (Z.of_nat cap - c) else Z.max 0 c.
  Lemma vcnt c (op : qop T) n : vector_call op /\ is_push (kind_of op) = kd -> (if kd then 0 <= c else c <= Z.of_nat cap) ->
    match vctl cap c (kind_of op) n with
    | CGo c' n' => (if kd then 0 <= c' else c' <= Z.of_nat cap) /\ vroom c' <= vroom c /\ vroom c' = vroom c - Z.b2z false + Z.b2z false
    | CReject => vroom c = 0 /\ false = false
    | COob c' => (if kd then 0 <= c' else c' <= Z.of_nat cap) /\ vroom c = 0 /\ vroom c' = 0 /\ false = false
    | CClaim c' _ => (if kd then 0 <= c' else c' <= Z.of_nat cap) /\ vroom c' <= vroom c /\ vroom c' = vroom c - 1 + Z.b2z false
    end.
  Proof using .
    intros [Hv Hk] Hc. unfold vroom. clear -Hv Hk Hc. destruct op as [[] x|[]]; cbn in Hv, Hk; try contradiction; subst kd; cbn [kind_of]; unfold vctl, clamp_size; destruct n as [|n]; cbn [Z.b2z].
    - destruct (Z.ltb_spec c 0), (Z.ltb_spec (Z.of_nat cap) c); try lia; try (destruct (Z.eqb_spec (Z.of_nat cap) (Z.of_nat cap)); lia).
      destruct (Z.eqb_spec c (Z.of_nat cap)); lia.
    - destruct (Z.leb_spec 0 c), (Z.ltb_spec c (Z.of_nat cap)); cbn [andb]; lia.
    - destruct (Z.ltb_spec c 0), (Z.ltb_spec (Z.of_nat cap) c); try lia; try (destruct (Z.eqb_spec 0 0); lia). destruct (Z.eqb_spec c 0); lia.
    - cbn zeta. destruct (Z.leb_spec 0 (c - 1)), (Z.ltb_spec (c - 1) (Z.of_nat cap)); cbn [andb]; lia.
  Qed.

  Lemma vec_same_kind_end wave s ls : rtc (hip_step (vctl cap) wave) start (s, ls) -> finished ls ->
    length (if kd then all_pushed ls else all_popped ls) = Nat.min (length (concat progs)) (if kd then cap - length l else length l).
  Proof using Hl Hwf.
    intros H F. apply hip_reach in H.
    pose proof (logs_reach (vctl cap) cap vm (fun _ => True) (vctl_ok cap) kd _ _ _ I0 Hrng vk_sk s ls H
      ltac:(intros t Ht; destruct (q_start_in t Ht) as (p & _ & ->); reflexivity)) as Ho.
    assert (Hr : forall c, 0 <= vroom c) by (intros c; unfold vroom; destruct kd; lia).
    pose proof (ginv_start (fun op : qop T => vector_call op /\ is_push (kind_of op) = kd) (fun c => if kd then 0 <= c else c <= Z.of_nat cap)
      (fun _ => false) vroom eq_refl (vec_conc_start cap l) progs ltac:(cbn [vec_conc_start q_c]; destruct kd; lia) Hwf) as G.
    apply (ginv_reach (vctl cap) _ _ (fun _ => false) vroom Hr eq_refl vcnt _ _ _ _ _ _) with (2 := H) in G.
    pose proof (ginv_end _ _ _ vroom Hr eq_refl _ _ _ _ G F) as E. pose proof (succ_length kd ls F Ho) as E2.
    unfold vroom in E. cbn [vec_conc_start q_c] in E. destruct kd; lia.
  Qed.
End vector.

(** ** deque *)
Section ers.
  Context {T C G : Type} (ctl : C -> qkind -> nat -> cres C) (gctl : G -> qkind -> nat -> cres G) (er : G -> C).
  Hypothesis Her : forall g k n, ctl (er g) k n = er_res er (gctl g k n).
  Notation ers := (er_s (T:=T) er).

  Lemma un_hip wave k : forall s ls s' ls', nsteps (hip_step ctl wave) k (ers s, ls) (s', ls') ->
    exists sg, s' = ers sg /\ nsteps (hip_step gctl wave) k (s, ls) (sg, ls').
  Proof using Her.
    induction k as [|k IH]; intros s ls s' ls' H.
    - inversion H; subst. exists s. split; [reflexivity|constructor].
    - inversion H as [|k0 c0 c1 c2 Hs Hr]; subst. inversion Hs as [s0 ls0 i t s1 t1 Hi Hrd Hst]; subst.
      rewrite (er_step ctl gctl er Her) in Hst. destruct (qstep gctl i s t) as [[sg tg]|] eqn:E; [|discriminate]. cbn in Hst. injection Hst as <- <-.
      destruct (IH sg _ s' ls' Hr) as (sg' & -> & R'). exists sg'. split; [reflexivity|]. econstructor; [|exact R']. econstructor; eassumption.
  Qed.
  Lemma er_hip wave s ls c' : hip_step gctl wave (s, ls) c' -> exists c1, hip_step ctl wave (ers s, ls) c1.
  Proof using Her.
    intros H. inversion H as [s0 ls0 i t s1 t1 Hi Hrd Hst]; subst. eexists. eapply HipStep; [exact Hi|exact Hrd|].
    rewrite (er_step ctl gctl er Her), Hst. reflexivity.
  Qed.
End ers.

Section deque.
  Context {T : Type} (cap b : nat) (l : list T) (Hb : (b < cap)%nat) (Hcap : Z.of_nat cap <= INT_MAX) (Hl : (length l <= cap)%nat) (kd : bool).
  Context (progs : list (list (qop T))) (Hwf : forall p op, p ∈ progs -> op ∈ p -> op_wf op /\ is_push (kind_of op) = kd).
  Notation start := (deq_conc_start cap b l, q_start progs).
  Notation gstep := (qstep (T:=T) (gctl cap)).
  Notation gst := (gstart cap b l).

  Lemma dk_wf p op : p ∈ progs -> op ∈ p -> op_wf op.
  Proof using Hwf. intros H1 H2. exact (proj1 (Hwf p op H1 H2)). Qed.
  Lemma dk_sk t : t ∈ q_start progs -> sk kd t /\ q_pc t = QIdle.
  Proof using Hwf. intros Ht. destruct (q_start_in progs t Ht) as (p & Hp & ->). split; [|reflexivity]. intros op Ho. exact (proj2 (Hwf p op Hp Ho)). Qed.

  Definition at2 (t : qthread T) : Z := match q_pc t with QCtl 2 => 1 | _ => 0 end.
  (** the distance between begin and end stays between 0 and the capacity *)
  Record dist (s : qshared T gcnt) (ls : list (qthread T)) : Prop := {
    di_sk : forall t, t ∈ ls -> sk kd t;
    di_le : forall t n, t ∈ ls -> q_pc t = QCtl n -> (n <= 2)%nat;
    di_d : if kd
      then 0 <= g_E (q_c s) - g_B (q_c s) /\ g_E (q_c s) - g_B (q_c s) + sumZ at2 ls <= Z.min (Z.of_nat cap) (c_n (g_c (q_c s)))
      else g_E (q_c s) - g_B (q_c s) <= Z.of_nat cap /\ Z.max 0 (c_n (g_c (q_c s))) <= g_E (q_c s) - g_B (q_c s) - sumZ at2 ls
  }.
  Lemma at2_nonneg t : 0 <= at2 t.
  Proof using . clear. unfold at2. destruct (q_pc t) as [|[|[|[|]]]| | | | | | | |]; lia. Qed.

  Lemma dist_step s ls i t s' t' : dist s ls -> ls !! i = Some t -> gstep i s t = Some (s', t') -> dist s' (<[i := t']> ls).
  Proof using All.
    intros D Hi E. assert (Hin : t ∈ ls) by (eapply elem_of_list_lookup_2; exact Hi).
    assert (Hlt : (i < length ls)%nat) by (eapply lookup_lt_Some; exact Hi).
    assert (Hc : forall t0, t0 ∈ <[i := t']> ls -> t0 = t' \/ t0 ∈ ls).
    { intros t0 H0. apply elem_of_list_lookup in H0 as [j Hj]. destruct (decide (i = j)) as [<-|Hij].
      - rewrite list_lookup_insert in Hj by exact Hlt. left. congruence.
      - rewrite list_lookup_insert_ne in Hj by exact Hij. right. eapply elem_of_list_lookup_2; exact Hj. }
    pose proof (di_sk _ _ D t Hin) as K. pose proof (di_d _ _ D) as Dd. pose proof (di_le _ _ D t) as Dl.
    assert (Hown : sk kd t' /\ (forall n, q_pc t' = QCtl n -> (n <= 2)%nat) /\
      (q_c s' = q_c s /\ at2 t' = at2 t \/
       exists op n, op ∈ q_prog t /\ q_pc t = QCtl n /\
         match gctl cap (q_c s) (kind_of op) n with
         | CGo c n' => q_c s' = c /\ at2 t' = (if decide (n' = 2%nat) then 1 else 0) /\ (n' <= 2)%nat
         | COob c => q_c s' = c /\ at2 t' = 0
         | CReject => q_c s' = q_c s /\ at2 t' = 0
         | CClaim c _ => q_c s' = c /\ at2 t' = 0
         end)).
    { unfold qstep in E. unfold at2. destruct (q_prog t) as [|op rest] eqn:Epr; [discriminate|].
      assert (Kt : forall r, sk kd (finish t r)). { intros r o Ho. apply K. cbn in Ho. rewrite Epr in *. right. exact Ho. }
      destruct (q_pc t) as [|n|p|p|p|p|p|p|p y|p r] eqn:Epc.
      - injection E as <- <-. split; [exact K|]. split; [|left; auto]. intros n [= <-]. lia.
      - assert (Hgo : forall c n', gctl cap (q_c s) (kind_of op) n = CGo c n' -> (n' <= 2)%nat).
        { intros c n'. unfold gctl, dctl. destruct n as [|[|n]].
          - destruct (_ =? _); [discriminate|]. intros [= _ <-]. lia.
          - destruct (is_push _), (_ <? _); try discriminate; intros [= _ <-]; lia.
          - destruct (kind_of op); discriminate. }
        destruct (gctl cap (q_c s) (kind_of op) n) as [c' n'| |c'|c' p] eqn:Eg; injection E as <- <-.
        + split; [exact K|]. split; [intros n0 [= <-]; eapply Hgo; reflexivity|]. right. exists op, n. split; [left|]. split; [reflexivity|]. rewrite Eg.
          split; [reflexivity|]. split; [|eapply Hgo; reflexivity]. cbn. destruct n' as [|[|[|n']]]; reflexivity.
        + split; [apply Kt|]. split; [discriminate|]. right. exists op, n. split; [left|]. split; [reflexivity|]. rewrite Eg. split; reflexivity.
        + split; [apply Kt|]. split; [discriminate|]. right. exists op, n. split; [left|]. split; [reflexivity|]. rewrite Eg. split; reflexivity.
        + split; [exact K|]. split; [discriminate|]. right. exists op, n. split; [left|]. split; [reflexivity|]. rewrite Eg. split; reflexivity.
      - destruct (q_locks s !! p) as [[]|]; try discriminate; injection E as <- <-; (split; [exact K|]); rewrite ?Epc; (split; [discriminate|]); left; auto.
      - destruct (q_occ s !! p) as [[]|]; try discriminate; destruct op; injection E as <- <-; (split; [exact K|]); (split; [discriminate|]); left; auto.
      - destruct op; [|discriminate]. injection E as <- <-. split; [exact K|]. split; [discriminate|]. left. auto.
      - destruct op; [|discriminate]. injection E as <- <-. split; [exact K|]. split; [discriminate|]. left. auto.
      - injection E as <- <-. split; [exact K|]. split; [discriminate|]. left. auto.
      - destruct (q_data s !! p) as [[y|]|]; try discriminate. injection E as <- <-. split; [exact K|]. split; [discriminate|]. left. auto.
      - injection E as <- <-. split; [exact K|]. split; [discriminate|]. left. auto.
      - destruct r as [r|]; injection E as <- <-; (split; [first [exact K|apply Kt]|]); (split; [discriminate|]); left; auto. }
    destruct Hown as (K' & L' & Hown). split.
    - intros t0 H0. destruct (Hc t0 H0) as [-> |H1]; [exact K'|exact (di_sk _ _ D t0 H1)].
    - intros t0 n H0. destruct (Hc t0 H0) as [-> |H1]; [apply L'|exact (di_le _ _ D t0 n H1)].
    - rewrite (sumZ_insert _ _ _ _ _ Hi). pose proof (sumZ_nonneg at2 ls (fun x _ => at2_nonneg x)) as A0.
      pose proof (sumZ_ge_elem at2 ls i t (fun x _ => at2_nonneg x) Hi) as A1.
      destruct Hown as [[-> ->]|(op & n & Ho & Epc & Hown)]; [destruct kd; lia|].
      pose proof (K op Ho) as Hk. assert (Hat : at2 t = if decide (n = 2%nat) then 1 else 0).
      { unfold at2. rewrite Epc. destruct n as [|[|[|n]]]; reflexivity. }
      rewrite Hat. pose proof (Dl n Hin Epc) as Hn2. unfold gctl, dctl in Hown. destruct n as [|[|n]].
      + rewrite decide_False by lia. destruct (_ =? _).
        * destruct Hown as [-> Ha]. rewrite Ha. destruct kd; lia.
        * destruct Hown as (-> & Ha & _). cbn [g_c g_E g_B]. rewrite decide_False in Ha by lia. rewrite Ha. destruct kd; lia.
      + rewrite decide_False by lia. rewrite Hk in Hown. destruct kd.
        * destruct (Z.ltb_spec (c_n (g_c (q_c s))) (Z.of_nat cap)).
          -- destruct Hown as (-> & Ha & _). cbn [g_c g_E g_B c_n]. rewrite decide_True in Ha by reflexivity. rewrite Ha. lia.
          -- destruct Hown as (-> & Ha). cbn [g_c g_E g_B c_n]. rewrite Ha. lia.
        * destruct (Z.ltb_spec 0 (c_n (g_c (q_c s)))).
          -- destruct Hown as (-> & Ha & _). cbn [g_c g_E g_B c_n]. rewrite decide_True in Ha by reflexivity. rewrite Ha. lia.
          -- destruct Hown as (-> & Ha). cbn [g_c g_E g_B c_n]. rewrite Ha. lia.
      + assert (n = 0)%nat as -> by lia. rewrite decide_True in Hat |- * by reflexivity.
        destruct (kind_of op) eqn:Ek; cbn in Hk; destruct kd; try discriminate; destruct Hown as [-> Ha]; cbn [g_c g_E g_B c_n]; rewrite Ha; lia.
  Qed.
  Lemma dist_reach s ls : reach gstep (gst, q_start progs) (s, ls) -> dist s ls.
  Proof using All.
    intros R. refine (invariant gstep (fun c => dist c.1 c.2) _ (gst, q_start progs) (s, ls) _ R).
    - intros c c' Hc Hs. destruct Hs as [s1 ls1 i t s2 t2 Hi Hst]. exact (dist_step _ _ _ _ _ _ Hc Hi Hst).
    - cbn [fst snd]. split.
      + intros t Ht. exact (proj1 (dk_sk t Ht)).
      + intros t n Ht E. destruct (q_start_in progs t Ht) as (p & _ & ->). discriminate.
      + rewrite sumZ_zero by (intros t Ht; destruct (q_start_in progs t Ht) as (p & _ & ->); reflexivity).
        cbn [gstart q_c g_E g_B g_c deq_conc_start c_n]. destruct kd; lia.
  Qed.

  Notation Hctl := (gctl_ok cap (cap_pos cap b Hb) Hcap).
  Notation I0 := (dstart_inv cap b l Hb Hl progs dk_wf).
  Lemma d_rng s ls : reach gstep (gst, q_start progs) (s, ls) -> forall p, (p < cap)%nat -> 0 <= gm cap (q_c s) p <= 1.
  Proof using All.
    intros R p Hp. pose proof (dist_reach s ls R) as D. apply gm_range; [exact Hp| |].
    - exact (i_cok _ _ _ _ _ _ (inv_reach (gctl cap) cap (gm cap) (gok cap) Hctl _ _ _ _ _ I0 R)).
    - pose proof (di_d _ _ D). pose proof (sumZ_nonneg at2 ls (fun x _ => at2_nonneg x)). destruct kd; lia.
  Qed.

  Lemma deq_same_kind_run wave k s ls : nsteps (hip_step (dctl cap) wave) k start (s, ls) ->
    (k <= 10 * length (concat progs))%nat /\ (finished ls \/ exists c', hip_step (dctl cap) wave (s, ls) c').
  Proof using All.
    intros H. destruct (un_hip (dctl cap) (gctl cap) g_c (gctl_er cap) wave k gst (q_start progs) s ls H) as (sg & -> & Hg).
    assert (R : reach gstep (gst, q_start progs) (sg, ls)) by (eapply hip_reach, rtc_nsteps_2; exact Hg). split.
    - pose proof (bounded (gctl cap) cap (gm cap) (gok cap) Hctl kd _ _ _ I0 d_rng dk_sk wave k sg ls Hg) as B. rewrite mu2_start in B.
      assert (0 <= sumZ mu2 ls); [|lia]. apply sumZ_nonneg. intros t Ht. eapply mu2_nonneg.
      exact (i_tok _ _ _ _ _ _ (inv_reach (gctl cap) cap (gm cap) (gok cap) Hctl _ _ _ _ _ I0 R) t Ht).
    - destruct (progress (gctl cap) cap (gm cap) (gok cap) Hctl _ _ _ I0 wave sg ls R) as [F|[c' X]]; [left; exact F|right].
      exact (er_hip (dctl cap) (gctl cap) g_c (gctl_er cap) wave sg ls c' X).
  Qed.

  Definition droom (c : gcnt) : Z := if kd then Z.max 0 (Z.of_nat cap - c_n (g_c c)) else Z.max 0 (c_n (g_c c)).
  Definition dpend (n : nat) : bool := (2 <=? n)%nat.
  Lemma dcnt_ok c (op : qop T) n : op_wf op /\ is_push (kind_of op) = kd -> True ->
    match gctl cap c (kind_of op) n with
    | CGo c' n' => True /\ droom c' <= droom c /\ droom c' = droom c - Z.b2z (dpend n') + Z.b2z (dpend n)
    | CReject => droom c = 0 /\ dpend n = false
    | COob c' => True /\ droom c = 0 /\ droom c' = 0 /\ dpend n = false
    | CClaim c' _ => True /\ droom c' <= droom c /\ droom c' = droom c - 1 + Z.b2z (dpend n)
    end.
  Proof using Hb.
    intros [_ Hk] _. clear -Hk Hb. unfold gctl, dctl, droom, clamp_size. destruct n as [|[|n]].
    - rewrite Hk. destruct kd; destruct (Z.ltb_spec (c_n (g_c c)) 0), (Z.ltb_spec (Z.of_nat cap) (c_n (g_c c))); try lia;
        match goal with |- context [?x =? ?y] => destruct (Z.eqb_spec x y) end; cbn; try lia; auto.
    - rewrite Hk. destruct kd; [destruct (Z.ltb_spec (c_n (g_c c)) (Z.of_nat cap))|destruct (Z.ltb_spec 0 (c_n (g_c c)))]; cbn [g_c c_n dpend Z.b2z Nat.leb]; repeat split; lia.
    - destruct (kind_of op); cbn in Hk; cbn [g_c c_n]; change (dpend (S (S n))) with true; cbn [Z.b2z]; repeat split; lia.
  Qed.

  Lemma deq_same_kind_end wave s ls : rtc (hip_step (dctl cap) wave) start (s, ls) -> finished ls ->
    length (if kd then all_pushed ls else all_popped ls) = Nat.min (length (concat progs)) (if kd then cap - length l else length l).
  Proof using All.
    intros H F. apply hip_reach in H. destruct (un_reach (dctl cap) (gctl cap) g_c (gctl_er cap) gst (q_start progs) s ls H) as (sg & -> & R).
    pose proof (logs_reach (gctl cap) cap (gm cap) (gok cap) Hctl kd _ _ _ I0 d_rng dk_sk sg ls R
      ltac:(intros t Ht; destruct (q_start_in progs t Ht) as (p & _ & ->); reflexivity)) as Ho.
    assert (Hr : forall c, 0 <= droom c) by (intros c; unfold droom; destruct kd; lia).
    pose proof (ginv_start (fun op : qop T => op_wf op /\ is_push (kind_of op) = kd) (fun _ => True) dpend droom eq_refl gst progs Logic.I Hwf) as G.
    apply (ginv_reach (gctl cap) _ _ dpend droom Hr eq_refl dcnt_ok _ _ _ _ _ _) with (2 := R) in G.
    pose proof (ginv_end _ _ _ droom Hr eq_refl _ _ _ _ G F) as E. pose proof (succ_length kd ls F Ho) as E2.
    unfold droom in E. cbn [gstart deq_conc_start q_c g_c c_n] in E. destruct kd; lia.
  Qed.
End deque.

(** every thread its own wavefront: the ordinary machine *)
Lemma cstep_hip {T C} (ctl : C -> qkind -> nat -> cres C) (c c' : qshared T C * list (qthread T)) : cstep (qstep ctl) c c' -> hip_step ctl id c c'.
Proof.
  intros H. destruct H as [s ls i t s' t' Hi Hst]. econstructor; [exact Hi| |exact Hst]. intros t0 _ _ j tj Hj E. unfold id in E. lia.
Qed.
Lemma hip_cstep {T C} (ctl : C -> qkind -> nat -> cres C) wave (c c' : qshared T C * list (qthread T)) : hip_step ctl wave c c' -> cstep (qstep ctl) c c'.
Proof. intros H. destruct H. econstructor; eassumption. Qed.
Lemma csteps_hip {T C} (ctl : C -> qkind -> nat -> cres C) k (c c' : qshared T C * list (qthread T)) :
  nsteps (cstep (qstep ctl)) k c c' -> nsteps (hip_step ctl id) k c c'.
Proof. induction 1; [constructor|]. econstructor; [apply cstep_hip; eassumption|assumption]. Qed.

Lemma vec_one_kind {T} (cap : nat) (l : list T) : (length l <= cap)%nat -> forall (push : bool) (progs : list (list (qop T))),
  (forall p op, p ∈ progs -> op ∈ p -> vector_call op /\ is_push (kind_of op) = push) ->
  forall k s ls, nsteps (cstep (qstep (vctl cap))) k (vec_conc_start cap l, q_start progs) (s, ls) ->
  (k <= 10 * length (concat progs))%nat /\
  (finished ls \/ exists c, cstep (qstep (vctl cap)) (s, ls) c) /\
  (finished ls -> length (if push then all_pushed ls else all_popped ls) = Nat.min (length (concat progs)) (if push then cap - length l else length l)).
Proof.
  intros Hl push progs Hwf k s ls H. apply csteps_hip in H.
  destruct (vec_same_kind_run cap l Hl push progs Hwf id k s ls H) as [A B]. split; [exact A|]. split.
  - destruct B as [B|[c B]]; [left; exact B|right; exists c; eapply hip_cstep; exact B].
  - intros F. apply (vec_same_kind_end cap l Hl push progs Hwf id s ls); [eapply rtc_nsteps_2; exact H|exact F].
Qed.
Lemma deq_one_kind {T} (cap b : nat) (l : list T) : (b < cap)%nat -> Z.of_nat cap <= INT_MAX -> (length l <= cap)%nat ->
  forall (push : bool) (progs : list (list (qop T))),
  (forall p op, p ∈ progs -> op ∈ p -> op_wf op /\ is_push (kind_of op) = push) ->
  forall k s ls, nsteps (cstep (qstep (dctl cap))) k (deq_conc_start cap b l, q_start progs) (s, ls) ->
  (k <= 10 * length (concat progs))%nat /\
  (finished ls \/ exists c, cstep (qstep (dctl cap)) (s, ls) c) /\
  (finished ls -> length (if push then all_pushed ls else all_popped ls) = Nat.min (length (concat progs)) (if push then cap - length l else length l)).
Proof.
  intros Hb Hcap Hl push progs Hwf k s ls H. apply csteps_hip in H.
  destruct (deq_same_kind_run cap b l Hb Hcap Hl push progs Hwf id k s ls H) as [A B]. split; [exact A|]. split.
  - destruct B as [B|[c B]]; [left; exact B|right; exists c; eapply hip_cstep; exact B].
  - intros F. apply (deq_same_kind_end cap b l Hb Hcap Hl push progs Hwf id s ls); [eapply rtc_nsteps_2; exact H|exact F].
Qed.

(** running a given schedule, counting the steps (for examples) *)
Lemma run_nsteps {T C} (ctl : C -> qkind -> nat -> cres C) sched : forall (c c' : qshared T C * list (qthread T)),
  run (qstep ctl) sched c = Some c' -> nsteps (cstep (qstep ctl)) (length sched) c c'.
Proof.
  induction sched as [|i sched IH]; intros [s ls] c' H; cbn in H.
  - injection H as <-. constructor.
  - destruct (ls !! i) as [t|] eqn:E1; [|discriminate]. destruct (qstep ctl i s t) as [[s' t']|] eqn:E2; [|discriminate].
    eapply nsteps_l; [econstructor; eassumption|]. apply IH. exact H.
Qed.
Lemma hip_run_nsteps {T C} (ctl : C -> qkind -> nat -> cres C) wave sched : forall (c c' : qshared T C * list (qthread T)),
  hip_run ctl wave sched c = Some c' -> nsteps (hip_step ctl wave) (length sched) c c'.
Proof.
  induction sched as [|i sched IH]; intros [s ls] c' H; cbn in H.
  - injection H as <-. constructor.
  - destruct (lane_ready_b wave ls i) eqn:El; [|discriminate]. destruct (ls !! i) as [t|] eqn:Ei; [|discriminate].
    destruct (qstep ctl i s t) as [[s' t']|] eqn:E; [|discriminate].
    eapply nsteps_l; [econstructor; [exact Ei|apply lane_ready_b_ok; exact El|exact E]|]. apply IH. exact H.
Qed.
