(** Kernels on a deque in any state that a history can leave. *)
From Verif Require Import Base Conc SlotModel SlotSpec SlotProofs Lifetime VectorModel VectorSpec VectorProofs VectorConcProofs RejectProofs VDebtProofs.
From Verif Require Import BitModel AtomicModel DequeModel DequeSpec DequeProofs DequeConcProofs DDebtSpec DDebtProofs DHistSpec.

Section kernel.
  Context {T : Type} (opt : bool) (cap b : nat) (l : list T) (k0 : Z) (Hb : (b < cap)%nat) (Hcap : 0 < Z.of_nat cap <= INT_MAX) (Hl : (length l <= cap)%nat).
  Context (progs : list (list (qop T))) (Hwf : forall p op, p ∈ progs -> op ∈ p -> op_wf op).
  Definition off_start : qshared T dcnt :=
    {| q_c := {| c_n := Z.of_nat (length l) + k0; c_begin := Z.of_nat b; c_end := Z.of_nat ((b + length l) mod cap) |};
       q_data := q_data (deq_conc_start cap b l); q_occ := q_occ (deq_conc_start cap b l); q_locks := q_locks (deq_conc_start cap b l) |}.
  Definition goff : qshared T gcnt :=
    {| q_c := {| g_c := q_c off_start; g_B := Z.of_nat b; g_E := Z.of_nat b + Z.of_nat (length l) |};
       q_data := q_data off_start; q_occ := q_occ off_start; q_locks := q_locks off_start |}.
  Notation start := (off_start, q_start progs).
  Notation dinv := (inv (T:=T) (C:=gcnt) cap (gm cap) (gok cap)).
  Notation w0 := (fun w => sumZ (wd w) (q_data (gstart (T:=T) cap b l))).
  Notation er := (er_s (T:=T) g_c).
  Notation gstep := (qstep (T:=T) (gctl cap)).
  Lemma hc : (0 < cap)%nat.
  Proof. clear -Hb. lia. Qed.
  Lemma hi : Z.of_nat cap <= INT_MAX.
  Proof. exact (proj2 Hcap). Qed.
  Lemma goff_inv : dinv w0 goff (q_start progs).
  Proof. destruct (dstart_inv cap b l Hb Hl progs Hwf). constructor; assumption. Qed.
  Lemma off_reach s ls : reach (qstep (dctl cap)) start (s, ls) -> exists sg, s = er sg /\ reach gstep (goff, q_start progs) (sg, ls) /\ dinv w0 sg ls.
  Proof.
    intros R. destruct (un_reach (dctl cap) (gctl cap) g_c (gctl_er cap) goff (q_start progs) s ls R) as (sg & -> & Rg).
    exists sg. split; [reflexivity|]. split; [exact Rg|]. eapply (inv_reach (gctl cap) cap (gm cap) (gok cap) (gctl_ok cap hc hi)); [exact goff_inv|exact Rg].
  Qed.
  Lemma off_conservation `{EqDecision T} s ls : reach (qstep (dctl cap)) start (s, ls) -> l ++ all_pushed ls ≡ₚ all_popped ls ++ stored (q_data s).
  Proof.
    intros R. destruct (off_reach _ _ R) as (sg & -> & _ & I). rewrite <- (dstored_start cap b l Hb Hl) at 1. change (q_data (deq_conc_start cap b l)) with (q_data (gstart cap b l)). change (q_data (er sg)) with (q_data sg). apply sumZ_perm. intros w. rewrite !sumZ_app.
    rewrite !sumZ_stored. unfold all_pushed, all_popped. rewrite !sumZ_bind. exact (i_cons _ _ _ _ _ _ I w).
  Qed.
  Lemma off_access s ls : reach (qstep (dctl cap)) start (s, ls) ->
    (forall i t, ls !! i = Some t -> q_prog t <> [] -> qstep (dctl cap) i s t <> None) /\
    (forall i j ti tj p, ls !! i = Some ti -> ls !! j = Some tj -> element_access ti = Some p -> element_access tj = Some p -> i = j) /\
    (forall i t p, ls !! i = Some t -> element_access t = Some p -> (p < cap)%nat /\
       exists d, q_data s !! p = Some d /\ (q_pc t = QConstruct p -> d = None) /\ (q_pc t <> QConstruct p -> d <> None)).
  Proof.
    intros R. destruct (off_reach _ _ R) as (sg & -> & _ & I). split; [|split].
    - intros i t Hi Hne. rewrite (er_step (dctl cap) (gctl cap) g_c (gctl_er cap)).
      destruct (not_stuck (gctl cap) cap (gm cap) (gok cap) _ _ _ _ _ I Hi Hne) as (s' & t' & ->). discriminate.
    - intros i j ti tj p. apply (no_race cap (gm cap) (gok cap) _ _ _ _ _ _ _ _ I).
    - intros i t p Hi Ha.
      assert (Hp : (p < cap)%nat) by (eapply access_bound; [eapply (i_tok _ _ _ _ _ _ I), elem_of_list_lookup_2; exact Hi|exact Ha]).
      split; [exact Hp|]. exists (lkd (q_data sg) p). destruct (i_len _ _ _ _ _ _ I) as (L1 & _ & _). cbn [er_s q_data]. rewrite lkd_Some by lia. split; [reflexivity|].
      unfold element_access in Ha. assert (Hne : q_prog t <> []) by (destruct (q_prog t); discriminate || congruence).
      pose proof (lifetime_at cap (gm cap) (gok cap) _ _ _ _ _ I Hi Hne) as HL.
      destruct (q_prog t); [discriminate|]. destruct (q_pc t); try discriminate; injection Ha as ->.
      + auto.
      + destruct HL as [y ->]. split; [discriminate|discriminate].
      + rewrite HL. split; [discriminate|discriminate].
  Qed.
  Lemma off_count s ls : reach (qstep (dctl cap)) start (s, ls) -> quiescent ls ->
    v_n (d_v (as_deq s)) = Z.of_nat (length (stored (q_data s))) + (k0 + rejected true progs ls - rejected false progs ls).
  Proof.
    intros R Hq. destruct (off_reach s ls R) as (sg & Es & _ & I).
    assert (Hk : forall p op, p ∈ progs -> op ∈ p -> is_push (kind_of op) = match op with QPush _ _ => true | QPop _ => false end).
    { intros p op H1 H2. specialize (Hwf p op H1 H2). destruct op; exact Hwf. }
    pose proof (rest_count (dctl cap) c_n dcnt2 eq_refl (dctl_reject cap) progs (Z.of_nat (length l) + k0) Hk off_start s ls eq_refl R Hq) as Hn.
    pose proof (rest_stored _ _ _ _ _ _ I Hq) as Hs. cbn beta in Hs. rewrite <- (length_stored 0 [] (Nat.le_refl _)) in Hs.
    assert (E0 : length (stored (q_data (gstart (T:=T) cap b l))) = length l) by (apply Permutation_length, (dstored_start cap b l Hb Hl)).
    subst s. cbn [as_deq d_v v_n] in *. change (q_data (er_s g_c sg)) with (q_data sg) in *. lia.
  Qed.
  Lemma off_rest s ls : reach (qstep (dctl cap)) start (s, ls) -> quiescent ls -> - 2 ^ 31 <= c_n (q_c s) <= INT_MAX ->
    exists L, L ≡ₚ stored (q_data s) /\ orep opt cap (as_deq s) L (k0 + rejected true progs ls - rejected false progs ls).
  Proof.
    intros R Hq HB. pose proof (off_count s ls R Hq) as V1. set (k := k0 + rejected true progs ls - rejected false progs ls) in *.
    destruct (off_reach s ls R) as (sg & -> & Rg & I).
    destruct (at_rest cap (gm cap) (gok cap) _ _ _ I Hq) as [Hrest _]. destruct (i_len _ _ _ _ _ _ I) as (L1 & L2 & L3). pose proof (i_cok _ _ _ _ _ _ I) as Hok.
    set (g := q_c sg) in *. assert (HS : 0 <= g_E g - g_B g <= Z.of_nat cap).
    { apply gm_span; [lia|]. intros p Hp. destruct (Hrest p Hp) as (_ & H2 & _). rewrite <- H2. destruct (lk (q_occ sg) p); cbn; lia. }
    set (B := Z.to_nat (c_begin (g_c g))). set (n := Z.to_nat (g_E g - g_B g)). destruct Hok as [OB OE].
    pose proof (Z.mod_pos_bound (g_B g) (Z.of_nat cap) ltac:(lia)) as MB. assert (HBc : (B < cap)%nat) by (unfold B; rewrite OB; lia).
    assert (Hocc : forall p, (p < cap)%nat -> lk (q_occ sg) p = bool_decide (ring_dist cap B p < n)%nat).
    { intros p Hp. destruct (Hrest p Hp) as (_ & H2 & _). rewrite gm_ring in H2 by (assumption || lia || (split; assumption)). fold B in H2. destruct (lk (q_occ sg) p);
        destruct (Z.ltb_spec (Z.of_nat (ring_dist cap B p)) (g_E g - g_B g)); cbn in H2; try lia; symmetry; [apply bool_decide_eq_true_2|apply bool_decide_eq_false_2]; unfold n; lia. }
    assert (Hlive : forall i, (i < n)%nat -> exists y, lkd (q_data sg) (ring_pos cap B i) = Some y).
    { intros i Hi. assert (Hp : (ring_pos cap B i < cap)%nat) by (apply ring_pos_lt; lia). destruct (Hrest _ Hp) as (_ & _ & H3). rewrite Hocc in H3 by exact Hp. rewrite dist_pos in H3 by lia.
      rewrite bool_decide_eq_true_2 in H3 by exact Hi. destruct (lkd (q_data sg) (ring_pos cap B i)); [eauto|discriminate]. }
    assert (HLs : exists L : list T, length L = n /\ forall i, (i < n)%nat -> L !! i = lkd (q_data sg) (ring_pos cap B i)).
    { clear - Hlive. induction n as [|n IH]; [exists []; split; [reflexivity|lia]|]. destruct IH as (L & E1 & E2); [auto with lia|]. destruct (Hlive n ltac:(lia)) as [y Hy]. exists (L ++ [y]). split; [rewrite app_length; cbn; lia|].
      intros i Hi. destruct (decide (i = n)) as [-> |]; [rewrite <- E1 at 1; rewrite list_lookup_middle by reflexivity; congruence|]. rewrite lookup_app_l by lia. apply E2. lia. }
    destruct HLs as (L & EL & HL). exists L.
    assert (Hdata : forall p, (p < cap)%nat -> q_data sg !! p = Some (L !! ring_dist cap B p)).
    { intros p Hp. rewrite lkd_Some by lia. apply (f_equal Some). destruct (decide (ring_dist cap B p < n)%nat) as [Hd|Hd].
      - rewrite (HL _ Hd), pos_dist by lia. reflexivity.
      - rewrite (lookup_ge_None_2 L) by lia. destruct (Hrest p Hp) as (_ & _ & H3). rewrite Hocc in H3 by exact Hp. rewrite bool_decide_eq_false_2 in H3 by exact Hd. destruct (lkd (q_data sg) p); [discriminate|reflexivity]. }
    assert (Ed : q_data sg = q_data (deq_conc_start cap B L)).
    { apply list_eq. intros p. destruct (decide (p < cap)%nat) as [Hp|Hp].
      - rewrite Hdata by exact Hp. cbn. rewrite list_lookup_fmap, lookup_seq_lt by exact Hp. reflexivity.
      - rewrite !lookup_ge_None_2; [reflexivity|cbn; rewrite fmap_length, seq_length; lia|lia]. }
    assert (HP : stored (q_data sg) ≡ₚ L) by (rewrite Ed; apply dstored_start; lia).
    change (q_data (er_s g_c sg)) with (q_data sg). split; [symmetry; exact HP|].
    change (q_data (er_s g_c sg)) with (q_data sg) in V1. assert (En : v_n (d_v (as_deq (er_s g_c sg))) = Z.of_nat (length L) + k) by (rewrite V1, HP; unfold k; lia).
    split; [|rewrite <- En; exact HB].
    set (D := as_deq (er_s g_c sg)) in *.
    exists B, {| d_v := {| v_n := Z.of_nat (length L); v_data := q_data sg; v_occ := q_occ sg; v_locks := q_locks sg; v_ev := (fun p => EvConstruct (InSlot p)) <$> occupied_slots cap B L |};
                 d_begin := d_begin D; d_end := d_end D; d_indices := d_indices D |}.
    split; [|repeat split; exact En]. change (d_begin D) with (c_begin (g_c g)). change (d_end D) with (c_end (g_c g)). change (d_indices D) with (replicate (length (q_occ sg)) 0).
    split; cbn [d_v d_begin d_end d_indices v_n v_data v_occ v_locks v_ev]; rewrite ?replicate_length; auto; try lia.
    - rewrite OE. assert (EB : g_B g mod Z.of_nat cap = Z.of_nat B) by (unfold B; rewrite OB; lia). replace (g_E g) with (g_B g + Z.of_nat n) by (unfold n; lia). rewrite <- Zplus_mod_idemp_l, EB, EL.
      unfold ring_pos. destruct (Nat.ltb_spec (B + n) cap); [rewrite Z.mod_small; lia|]. symmetry. apply Z.mod_unique with (q := 1); lia.
    - apply list_eq. intros p. destruct (decide (p < cap)%nat) as [Hp|Hp].
      + rewrite lookup_replicate_2 by exact Hp. rewrite lk_Some by lia. destruct (Hrest p Hp) as (-> & _). reflexivity.
      + rewrite !lookup_ge_None_2; [reflexivity|rewrite replicate_length; lia|lia].
    - intros p Hp. rewrite lk_Some by lia. rewrite Hocc, EL by exact Hp. reflexivity.
    - intros _. rewrite slot_events_constructs. destruct (constructs_list (occupied_slots cap B L) ltac:(apply NoDup_filter, NoDup_seq) nothing ltac:(reflexivity)) as [C1 C2]. split; [exact C1|].
      intros p. rewrite C2. cbn [nothing orb]. apply bool_decide_ext. apply elem_occupied.
  Qed.
End kernel.

Section history.
  Context {T : Type} `{EqDecision T} (opt : bool) (ord : nat -> list nat) (Hord : forall n, ord n ≡ₚ seq 0 n) (cap : nat) (Hcap : 0 < Z.of_nat cap <= INT_MAX).
  Lemma orep_le (d : deq T) (l : list T) k : orep opt cap d l k -> (length l <= cap)%nat.
  Proof. intros ((b & w & R & _) & _). exact (e_le _ _ _ _ _ R). Qed.
  Lemma orep_indices (d : deq T) (l : list T) k r : orep opt cap d l k -> length r = cap -> orep opt cap (d_set_indices d r) l k.
  Proof.
    intros ((b & w & R & (N & N1 & N2 & N3)) & HB) Hr. split; [|exact HB]. exists b, (d_set_indices w r). split; [destruct R; constructor; auto|]. repeat split; try apply N; auto.
  Qed.
  Lemma orep_len (d : deq T) (l : list T) k : orep opt cap d l k -> length (d_indices d) = cap.
  Proof. intros ((b & w & R & (_ & _ & _ & ->)) & _). exact (e_li _ _ _ _ _ R). Qed.
  Lemma orep_start (d : deq T) (l : list T) k : orep opt cap d l k -> exists b, (b < cap)%nat /\ d_as_shared d = off_start cap b l k.
  Proof.
    intros ((b & w & R & ((N1 & N2 & N3 & N4) & NB & NE & _)) & _). exists b. pose proof (e_b _ _ _ _ _ R) as Hb. pose proof (e_le _ _ _ _ _ R) as Hle. split; [exact Hb|].
    unfold d_as_shared, off_start. rewrite N1, N2, N3, N4, NB, NE, (e_n _ _ _ _ _ R), (e_begin _ _ _ _ _ R), (e_end _ _ _ _ _ R), (e_locks _ _ _ _ _ R). f_equal.
    - f_equal. f_equal. unfold ring_pos. destruct (Nat.ltb_spec (b + length l) cap); [rewrite Nat.mod_small; lia|]. apply Nat.mod_unique with (q := 1%nat); lia.
    - apply list_eq. intros p. destruct (decide (p < cap)%nat) as [Hp|Hp].
      + rewrite (e_data _ _ _ _ _ R) by exact Hp. cbn. rewrite list_lookup_fmap, lookup_seq_lt by exact Hp. reflexivity.
      + rewrite !lookup_ge_None_2; [reflexivity|cbn; rewrite fmap_length, seq_length; lia|rewrite (e_ld _ _ _ _ _ R); lia].
    - apply list_eq. intros p. destruct (decide (p < cap)%nat) as [Hp|Hp].
      + rewrite (e_occ _ _ _ _ _ R) by exact Hp. cbn. rewrite list_lookup_fmap, lookup_seq_lt by exact Hp. reflexivity.
      + rewrite !lookup_ge_None_2; [reflexivity|cbn; rewrite fmap_length, seq_length; lia|rewrite (e_lo _ _ _ _ _ R); lia].
  Qed.
  Lemma orep_stored (d : deq T) (l : list T) k : orep opt cap d l k -> stored (v_data (d_v d)) ≡ₚ l.
  Proof.
    intros O. pose proof (orep_le _ _ _ O). destruct (orep_start _ _ _ O) as (b & Hb & E). change (v_data (d_v d)) with (q_data (d_as_shared d)). rewrite E. cbn [off_start q_data]. apply dstored_start; assumption.
  Qed.
  Lemma dhistory_ok (ps : list (dphase (T:=T))) : forall d l k d', orep opt cap d l k -> dhistory_run opt ord cap d ps d' -> (forall p, p ∈ ps -> dphase_fits opt p) ->
    exists l' k', dhistory_spec opt cap l k ps l' k' /\ orep opt cap d' l' k'.
  Proof.
    induction ps as [|p ps IH]; intros d l k d' D R Hf; [inversion R; subst; exists l, k; split; [constructor|exact D]|].
    inversion R as [|v0 p0 d1 ps0 v2 Hp HR]; subst. pose proof (Hf p ltac:(left)) as Hfp.
    assert (HP : exists l1 k1, dphase_spec opt cap l k p l1 k1 /\ orep opt cap d1 l1 k1).
    { inversion Hp as [v0 ops rs v3 E|v0 progs s ls Rk Hq HB]; subst.
      - pose proof (off_run_ok opt ord Hord cap Hcap ops d l k D (fun op Ho => Hfp op k Ho)) as H. rewrite E in H. destruct (off_run opt (Z.of_nat cap) l k ops) as [[[l1 k1] rs1]| |] eqn:Ed; [|discriminate|discriminate].
        destruct H as (v2 & E2 & D2). injection E2 as <- <-. exists l1, k1. split; [|exact D2]. split; [exact Ed|]. exact (orep_le _ _ _ D2).
      - destruct (orep_start _ _ _ D) as (b & Hb & Es). rewrite Es in Rk. pose proof (orep_le _ _ _ D) as Hle.
        destruct (off_rest opt cap b l k Hb Hcap Hle progs Hfp s ls Rk Hq HB) as (L & P & O). exists L, (k + rejected true progs ls - rejected false progs ls).
        split; [|apply orep_indices; [exact O|exact (orep_len _ _ _ D)]]. split; [|exact (orep_le _ _ _ O)]. split; [|reflexivity]. rewrite P. exact (off_conservation cap b l k Hb Hcap Hle progs Hfp s ls Rk). }
    destruct HP as (l1 & k1 & S1 & D1). destruct (IH d1 l1 k1 d' D1 HR (fun q Hq => Hf q (elem_of_list_further _ _ _ Hq))) as (l' & k' & S' & D'). exists l', k'. split; [econstructor; eassumption|exact D'].
  Qed.
  Lemma zero_true (d : deq T) (l : list T) : orep opt cap d l 0 -> exists b, drep true cap b d l.
  Proof.
    intros ((b & w & R & ((N1 & N2 & N3 & N4) & NB & NE & NI)) & _). exists b. destruct R. constructor; rewrite ?N1, ?N2, ?N3, ?N4, ?NB, ?NE, ?NI; auto; try lia; discriminate.
  Qed.
  Lemma true_zero b (d : deq T) (l : list T) : drep true cap b d l -> orep opt cap d l 0.
  Proof.
    intros R. pose proof (eq_refl : INT_MAX = 2 ^ 31 - 1) as HI. pose proof (e_le _ _ _ _ _ R) as Hle. split; [|lia].
    exists b, {| d_v := {| v_n := v_n (d_v d); v_data := v_data (d_v d); v_occ := v_occ (d_v d); v_locks := v_locks (d_v d); v_ev := (fun p => EvConstruct (InSlot p)) <$> occupied_slots cap b l |};
                 d_begin := d_begin d; d_end := d_end d; d_indices := d_indices d |}.
    split; [|repeat split; cbn; lia]. destruct R. constructor; cbn; auto.
    intros _. rewrite slot_events_constructs. destruct (constructs_list (occupied_slots cap b l) ltac:(apply NoDup_filter, NoDup_seq) nothing ltac:(reflexivity)) as [C1 C2]. split; [exact C1|].
    intros p. rewrite C2. cbn [nothing orb]. apply bool_decide_ext. apply elem_occupied.
  Qed.
  Lemma zero_step (d : deq T) (l : list T) op l' r : orep opt cap d l 0 -> dop_fits (Z.of_nat cap) op -> spec_dstep (Z.of_nat cap) l op = Ret (l', r) ->
    exists d' r', deq_step opt ord d op = Ret (d', r') /\ same_result r' r /\ orep opt cap d' l' 0.
  Proof.
    intros O Hf Hs. assert (Hc : op = DClear \/ op <> DClear) by (destruct op; ((left; reflexivity) || (right; discriminate))). destruct Hc as [-> | Hne].
    - pose proof (off_step_ok opt ord Hord cap Hcap d l 0 DClear O ltac:(right; lia)) as H. pose proof (orep_le _ _ _ O) as Hle.
      destruct (off_step_zero opt (Z.of_nat cap) l DClear ltac:(lia) ltac:(lia) ltac:(right; lia)) as [E _]. rewrite E in H. rewrite Hs in H. cbn [obind] in H. destruct H as (d' & E1 & O' & _). exists d', r. split; [exact E1|]. split; [|exact O'].
      injection Hs as <- <-. reflexivity.
    - destruct (zero_true _ _ O) as [b R]. destruct (step_drep true ord Hord cap Hcap b d l op l' r R Hf Hs) as (b' & d' & r' & E & Sr & R'). exists d', r'. split; [|split; [exact Sr|exact (true_zero _ _ _ R')]].
      rewrite <- E. destruct op; try reflexivity. contradiction.
  Qed.
  Lemma zero_run ops : forall (d : deq T) (l : list T) l' rs, orep opt cap d l 0 -> (forall op, op ∈ ops -> dop_fits (Z.of_nat cap) op) -> spec_drun (Z.of_nat cap) l ops = Ret (l', rs) ->
    exists d' rs', deq_run opt ord d ops = Ret (d', rs') /\ Forall2 same_result rs' rs /\ orep opt cap d' l' 0.
  Proof.
    induction ops as [|op ops IH]; intros d l l' rs R Hat Hs.
    - cbn in *. injection Hs as <- <-. eexists _, _. split; [reflexivity|]. split; [constructor|exact R].
    - cbn [spec_drun deq_run] in *. destruct (spec_dstep (Z.of_nat cap) l op) as [[l1 r]| |] eqn:E1; try discriminate. cbn [obind] in Hs.
      destruct (spec_drun (Z.of_nat cap) l1 ops) as [[l2 rs2]| |] eqn:E2; try discriminate. cbn [obind] in Hs. injection Hs as <- <-.
      destruct (zero_step _ _ _ _ _ R (Hat op ltac:(left)) E1) as (d1 & r1 & Es & Hr & R1). rewrite Es. cbn [obind].
      destruct (IH _ _ _ _ R1 (fun o Ho => Hat o (elem_of_list_further _ _ _ Ho)) E2) as (d2 & rs' & E3 & Hrs & R2). rewrite E3. cbn [obind].
      eexists _, _. split; [reflexivity|]. split; [constructor; assumption|exact R2].
  Qed.
  (** a sequence of plain calls that returns has a result in the specification *)
  Lemma plain_fits op : plain_op (T:=T) cap op -> dop_fits (Z.of_nat cap) op.
  Proof. destruct op; cbn; auto; contradiction. Qed.
  Lemma plain_run ops : forall (d : deq T) (l : list T) d' rs, orep opt cap d l 0 -> (forall op, op ∈ ops -> plain_op cap op) -> deq_run opt ord d ops = Ret (d', rs) ->
    exists l' rs', spec_drun (Z.of_nat cap) l ops = Ret (l', rs').
  Proof.
    induction ops as [|op ops IH]; intros d l d' rs O Hp Hr; [cbn; eauto|]. cbn [deq_run spec_drun] in *.
    destruct (spec_dstep (Z.of_nat cap) l op) as [[l1 r]| |] eqn:E1.
    - destruct (zero_step _ _ _ _ _ O (plain_fits _ (Hp op ltac:(left))) E1) as (d1 & r1 & Es & _ & O1). rewrite Es in Hr. cbn [obind] in *.
      destruct (deq_run opt ord d1 ops) as [[d2 rs2]| |] eqn:E2; try discriminate. destruct (IH _ _ _ _ O1 (fun o Ho => Hp o (elem_of_list_further _ _ _ Ho)) E2) as (l2 & rs' & ->). cbn. eauto.
    - exfalso. pose proof (Hp op ltac:(left)) as Hop. pose proof (orep_le _ _ _ O) as Hle. assert (Hd : described opt 0 op) by (destruct op; cbn in *; auto; try contradiction; try discriminate; right; lia).
      pose proof (off_step_ok opt ord Hord cap Hcap d l 0 op O Hd) as H. destruct (off_step_zero opt (Z.of_nat cap) l op ltac:(lia) ltac:(lia) Hd) as [E _]. rewrite E, E1 in H. cbn [obind] in H. rewrite H in Hr. discriminate.
    - exfalso. clear - E1. destruct op; cbn in E1; unfold spec_get in E1; try discriminate; repeat (case_match; try discriminate).
  Qed.
  Lemma plain_ok (ps : list (dphase (T:=T))) : forall d l d', orep opt cap d l 0 -> dhistory_run opt ord cap d ps d' -> (forall p, p ∈ ps -> balanced cap p) ->
    exists l', plain_history cap l ps l' /\ orep opt cap d' l' 0.
  Proof.
    induction ps as [|p ps IH]; intros d l d' D R Hf; [inversion R; subst; exists l; split; [constructor|exact D]|].
    inversion R as [|v0 p0 d1 ps0 v2 Hp HR]; subst. pose proof (Hf p ltac:(left)) as Hfp. specialize (IH d1). assert (Hf' : forall p, p ∈ ps -> balanced cap p) by (intros q Hq; apply Hf; right; exact Hq).
    inversion Hp as [v0 ops rs v3 E|v0 progs s ls Rk Hq HB]; subst.
    - destruct (plain_run ops d l d1 rs D Hfp E) as (l1 & rs1 & Es). destruct (zero_run ops d l l1 rs1 D (fun o Ho => plain_fits _ (Hfp o Ho)) Es) as (d2 & rs2 & E2 & Hs & O). rewrite E in E2. injection E2 as <- <-.
      destruct (IH l1 d' O HR Hf') as (l' & P & O'). exists l'. split; [|exact O']. econstructor; [exact Es|exact Hs|exact (orep_le _ _ _ O)|exact P].
    - destruct Hfp as [Hwf Hrej]. destruct (orep_start _ _ _ D) as (b & Hb & Es). rewrite Es in Rk. pose proof (orep_le _ _ _ D) as Hle.
      destruct (off_rest opt cap b l 0 Hb Hcap Hle progs Hwf s ls Rk Hq HB) as (L & P & O). replace (0 + rejected true progs ls - rejected false progs ls) with 0 in O by lia.
      destruct (IH L d' (orep_indices _ _ _ _ O (orep_len _ _ _ D)) HR Hf') as (l' & PH & O'). exists l'. split; [|exact O']. econstructor; [|exact (orep_le _ _ _ O)|exact PH].
      rewrite P. exact (off_conservation cap b l 0 Hb Hcap Hle progs Hwf s ls Rk).
  Qed.
  Context (junk : list Z) (d0 : deq T) (E0 : deq_create junk (Z.of_nat cap) = Ret d0) (ps : list (dphase (T:=T))) (d : deq T) (R : dhistory_run opt ord cap d0 ps d).
  Lemma dcreated : orep opt cap d0 [] 0.
  Proof.
    destruct (drep_create (T:=T) opt ord Hord cap Hcap junk) as (d1 & E1 & R1). rewrite E0 in E1. injection E1 as <-. split; [exists 0%nat, d0; split; [exact R1|repeat split; lia]|]. cbn. pose proof (eq_refl : INT_MAX = 2 ^ 31 - 1). lia.
  Qed.
  Lemma plain_hist : (forall p, p ∈ ps -> balanced cap p) -> exists l, plain_history cap [] ps l /\ stored (v_data (d_v d)) ≡ₚ l /\ d_size d = Z.of_nat (length l) /\ d_valid d = true /\
    forall ops, (forall op, op ∈ ops -> dop_fits (Z.of_nat cap) op) -> forall l' rs, spec_drun (Z.of_nat cap) l ops = Ret (l', rs) -> exists d' rs', deq_run opt ord d ops = Ret (d', rs') /\ Forall2 same_result rs' rs.
  Proof.
    intros Hf. destruct (plain_ok ps d0 [] d dcreated R Hf) as (l & P & D). exists l. split; [exact P|]. split; [exact (orep_stored _ _ _ D)|]. pose proof (orep_le _ _ _ D) as Hle.
    pose proof D as ((b & w & Rw & N) & _). destruct (off_facts opt ord Hord cap Hcap _ _ _ _ _ Rw N) as (_ & _ & Es & _). split; [lia|]. split; [rewrite (valid_off opt ord Hord cap Hcap _ _ _ _ _ Rw N); reflexivity|].
    intros ops Ho l' rs Hs. destruct (zero_run ops d l l' rs D Ho Hs) as (d' & rs' & E & H & _). eauto.
  Qed.
  Context (Hf : forall p, p ∈ ps -> dphase_fits opt p).
  Lemma deque_history : exists l k, dhistory_spec opt cap [] 0 ps l k /\ stored (v_data (d_v d)) ≡ₚ l /\ d_size d = Z.max 0 (Z.min (Z.of_nat cap) (Z.of_nat (length l) + k)) /\ (d_valid d = true <-> k = 0).
  Proof.
    destruct (dhistory_ok ps d0 [] 0 d dcreated R Hf) as (l & k & S & D). exists l, k. split; [exact S|]. split; [exact (orep_stored _ _ _ D)|].
    destruct D as ((b & w & Rw & N) & _). destruct (off_facts opt ord Hord cap Hcap _ _ _ _ _ Rw N) as (_ & _ & Es & _). split; [exact Es|]. rewrite (valid_off opt ord Hord cap Hcap _ _ _ _ _ Rw N). apply Z.eqb_eq.
  Qed.
  Lemma deque_history_calls ops : (forall op k, op ∈ ops -> described opt k op) -> exists l k, dhistory_spec opt cap [] 0 ps l k /\
    match off_run opt (Z.of_nat cap) l k ops with
    | Ret (l', k', rs) => exists d', deq_run opt ord d ops = Ret (d', rs)
    | UB => deq_run opt ord d ops = UB
    | Hang => deq_run opt ord d ops = Hang
    end.
  Proof.
    intros Ho. destruct (dhistory_ok ps d0 [] 0 d dcreated R Hf) as (l & k & S & D). exists l, k. split; [exact S|].
    pose proof (off_run_ok opt ord Hord cap Hcap ops d l k D (fun op H => Ho op k H)) as H. destruct (off_run opt (Z.of_nat cap) l k ops) as [[[l1 k1] rs1]| |]; [|exact H|exact H].
    destruct H as (v2 & E2 & _). exists v2. exact E2.
  Qed.
  Lemma deque_history_kernel (progs : list (list (qop T))) : (forall p op, p ∈ progs -> op ∈ p -> op_wf op) -> forall s ls, reach (qstep (dctl cap)) (d_as_shared d, q_start progs) (s, ls) ->
    (forall i t, ls !! i = Some t -> q_prog t <> [] -> qstep (dctl cap) i s t <> None) /\
    (forall i j ti tj p, ls !! i = Some ti -> ls !! j = Some tj -> element_access ti = Some p -> element_access tj = Some p -> i = j) /\
    (forall i t p, ls !! i = Some t -> element_access t = Some p -> (p < cap)%nat /\
       exists x, q_data s !! p = Some x /\ (q_pc t = QConstruct p -> x = None) /\ (q_pc t <> QConstruct p -> x <> None)).
  Proof.
    intros Hwf s ls Rk. destruct (dhistory_ok ps d0 [] 0 d dcreated R Hf) as (l & k & S & D). destruct (orep_start _ _ _ D) as (b & Hb & Es). rewrite Es in Rk. pose proof (orep_le _ _ _ D) as Hle.
    exact (off_access cap b l k Hb Hcap Hle progs Hwf s ls Rk).
  Qed.
End history.
