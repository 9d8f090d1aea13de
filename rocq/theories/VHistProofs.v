(** Kernels on a vector in any state that a history can leave. *)
From Verif Require Import Base Conc SlotModel SlotSpec SlotProofs Lifetime VectorModel VectorSpec VectorProofs VectorConcProofs RejectProofs VDebtSpec VDebtProofs VHistSpec.

Section kernel.
  Context {T : Type} (opt : bool) (ord : nat -> list nat) (Hord : forall n, ord n ≡ₚ seq 0 n) (cap : nat) (Hcap : 0 < Z.of_nat cap <= INT_MAX).
  Context (v : vec T) (l : list T) (k : Z) (D : drep opt cap v l k).
  Context (progs : list (list (qop T))) (Hwf : forall p op, p ∈ progs -> op ∈ p -> vector_call op).
  Notation s0 := (as_shared v).
  Notation vinv := (inv (T:=T) (C:=Z) cap vm (fun _ => True)).

  Lemma shared_inv : vinv (fun w => sumZ (wd w) (q_data s0)) s0 (q_start progs).
  Proof.
    destruct D as ((w & R & (N1 & N2 & N3 & N4)) & Hp & Hm & _). pose proof (r_le _ _ _ _ R) as Hle.
    apply inv_init; cbn [as_shared q_data q_occ q_locks q_c]; rewrite ?N1, ?N2, ?N3; try apply R; auto.
    - intros p op H1 H2. apply vector_call_wf. eapply Hwf; eauto.
    - intros p Hpc. unfold lk. rewrite (r_occ _ _ _ _ R) by exact Hpc. cbn [default]. rewrite N4, (r_n _ _ _ _ R). unfold vm.
      destruct (decide (0 < k)) as [H1|H1]; [rewrite Hp by exact H1; rewrite bool_decide_eq_true_2 by lia; destruct (Z.ltb_spec (Z.of_nat p) (Z.of_nat cap + k)); [reflexivity|lia]|].
      destruct (decide (k < 0)) as [H2|H2]; [rewrite Hm by exact H2; cbn [length]; rewrite bool_decide_eq_false_2 by lia; destruct (Z.ltb_spec (Z.of_nat p) (Z.of_nat 0 + k)); [lia|reflexivity]|].
      destruct (bool_decide_reflect (p < length l)%nat), (Z.ltb_spec (Z.of_nat p) (Z.of_nat (length l) + k)); cbn; lia.
    - intros p Hpc. unfold lk, lkd. rewrite (r_occ _ _ _ _ R), (r_data _ _ _ _ R) by exact Hpc. cbn [default].
      destruct (decide (p < length l)%nat) as [H|H].
      + destruct (lookup_lt_is_Some_2 l p H) as [x ->]. rewrite bool_decide_eq_true_2 by exact H. reflexivity.
      + rewrite lookup_ge_None_2 by lia. rewrite bool_decide_eq_false_2 by exact H. reflexivity.
  Qed.
  Lemma shared_reach s ls : reach (qstep (vctl cap)) (s0, q_start progs) (s, ls) -> vinv (fun w => sumZ (wd w) (q_data s0)) s ls.
  Proof. intros R. eapply (inv_reach (vctl cap) cap vm (fun _ => True) (vctl_ok cap)); [exact shared_inv|exact R]. Qed.
  Lemma shared_stored : stored (q_data s0) = l.
  Proof.
    destruct D as ((w & R & (N1 & N2 & N3 & N4)) & Hp & Hm & _). cbn. rewrite N1. rewrite <- (stored_start cap l). f_equal. apply list_eq. intros p.
    destruct (decide (p < cap)%nat) as [Hpc|Hpc].
    - rewrite (r_data _ _ _ _ R) by exact Hpc. destruct (start_lookup cap l (r_le _ _ _ _ R) p Hpc) as [E _]. rewrite <- E. symmetry. apply lkd_Some. cbn. rewrite app_length, fmap_length, replicate_length. pose proof (r_le _ _ _ _ R). lia.
    - rewrite !lookup_ge_None_2; [reflexivity|cbn; rewrite app_length, fmap_length, replicate_length; pose proof (r_le _ _ _ _ R); lia|rewrite (r_ld _ _ _ _ R); lia].
  Qed.
  Lemma shared_conservation `{EqDecision T} s ls : reach (qstep (vctl cap)) (s0, q_start progs) (s, ls) -> l ++ all_pushed ls ≡ₚ all_popped ls ++ stored (q_data s).
  Proof.
    intros R. pose proof (shared_reach _ _ R) as I. apply sumZ_perm. intros w. rewrite !sumZ_app.
    rewrite <- shared_stored. rewrite !sumZ_stored. unfold all_pushed, all_popped. rewrite !sumZ_bind.
    exact (i_cons _ _ _ _ _ _ I w).
  Qed.
  Lemma shared_access s ls : reach (qstep (vctl cap)) (s0, q_start progs) (s, ls) ->
    (forall i t, ls !! i = Some t -> q_prog t <> [] -> qstep (vctl cap) i s t <> None) /\
    (forall i j ti tj p, ls !! i = Some ti -> ls !! j = Some tj -> element_access ti = Some p -> element_access tj = Some p -> i = j) /\
    (forall i t p, ls !! i = Some t -> element_access t = Some p -> (p < cap)%nat /\
       exists d, q_data s !! p = Some d /\ (q_pc t = QConstruct p -> d = None) /\ (q_pc t <> QConstruct p -> d <> None)) /\
    exists s' ls', reach (qstep (vctl cap)) (s, ls) (s', ls') /\ finished ls'.
  Proof.
    intros R. pose proof (shared_reach _ _ R) as I. split; [|split; [|split]].
    - intros i t Hi Hne. destruct (not_stuck (vctl cap) cap vm (fun _ => True) _ _ _ _ _ I Hi Hne) as (s' & t' & ->). discriminate.
    - intros i j ti tj p. apply (no_race cap vm (fun _ => True) _ _ _ _ _ _ _ _ I).
    - intros i t p Hi Ha.
      assert (Hp : (p < cap)%nat) by (eapply access_bound; [eapply (i_tok _ _ _ _ _ _ I), elem_of_list_lookup_2; exact Hi|exact Ha]).
      split; [exact Hp|]. exists (lkd (q_data s) p). destruct (i_len _ _ _ _ _ _ I) as (L1 & _ & _). rewrite lkd_Some by lia. split; [reflexivity|].
      unfold element_access in Ha. assert (Hne : q_prog t <> []) by (destruct (q_prog t); discriminate || congruence).
      pose proof (lifetime_at cap vm (fun _ => True) _ _ _ _ _ I Hi Hne) as HL.
      destruct (q_prog t); [discriminate|]. destruct (q_pc t); try discriminate; injection Ha as ->.
      + auto.
      + destruct HL as [y ->]. split; [discriminate|discriminate].
      + rewrite HL. split; [discriminate|discriminate].
    - apply (can_finish (vctl cap) cap vm (fun _ => True) (vctl_ok cap) (fun w => sumZ (wd w) (q_data s0))); [intros; apply vm_range|exact I].
  Qed.

  Lemma shared_rest s ls : reach (qstep (vctl cap)) (s0, q_start progs) (s, ls) -> quiescent ls -> - 2 ^ 31 <= q_c s <= INT_MAX ->
    drep opt cap (as_vec s) (stored (q_data s)) (k + rejected true progs ls - rejected false progs ls).
  Proof.
    intros R Hq HB. pose proof (shared_reach _ _ R) as I. destruct (at_rest cap vm (fun _ => True) _ _ _ I Hq) as [Hr _]. destruct (i_len _ _ _ _ _ _ I) as (L1 & L2 & L3).
    assert (Hk : forall p op, p ∈ progs -> op ∈ p -> is_push (kind_of op) = match op with QPush _ _ => true | QPop _ => false end).
    { intros p op H1 H2. specialize (Hwf p op H1 H2). destruct op as [[] x|[]]; cbn in *; try contradiction; reflexivity. }
    pose proof (rest_count (vctl cap) (fun c => c) (fun _ => 0) eq_refl (vctl_reject cap) progs (v_n v) Hk s0 s ls eq_refl R Hq) as Hn.
    pose proof (rest_stored _ _ _ _ _ _ I Hq) as Hs. cbn beta in Hs. rewrite <- (length_stored 0 [] (Nat.le_refl _)), shared_stored in Hs. destruct (rest_arrays _ _ _ _ _ _ I Hq) as (A1 & A2 & A3).
    assert (Ev : v_n v = Z.of_nat (length l) + k). { destruct D as ((w & Rw & (_ & _ & _ & ->)) & _). rewrite (r_n _ _ _ _ Rw). reflexivity. }
    set (k' := k + rejected true progs ls - rejected false progs ls). set (L := stored (q_data s)) in *. assert (Ek : q_c s = Z.of_nat (length L) + k') by (unfold k'; lia). clear Hn Hs.
    set (n := Z.to_nat (Z.min (Z.of_nat cap) (q_c s))).
    assert (Hlive : forall p, (p < cap)%nat -> exists y, q_data s !! p = Some y /\ (y <> None <-> (p < n)%nat)).
    { intros p Hp. exists (lkd (q_data s) p). split; [apply lkd_Some; lia|]. destruct (Hr p Hp) as (_ & H2 & H3). rewrite H2 in H3. unfold vm in H3.
      destruct (lkd (q_data s) p), (Z.ltb_spec (Z.of_nat p) (q_c s)); cbn in H3; try discriminate; (split; [intros; unfold n; try lia; congruence|intros; unfold n in *; try congruence; lia]). }
    assert (Hpre : forall p, (p < cap)%nat -> q_data s !! p = Some (L !! p)).
    { intros p Hp. apply (stored_prefix _ n); [unfold n; lia| |lia]. intros q Hqq. apply Hlive. lia. }
    assert (Hlen : length L = n).
    { assert (n <= cap)%nat by (unfold n; lia). destruct (Nat.lt_trichotomy (length L) n) as [H1|[H1|H1]]; [|exact H1|].
      - destruct (Hlive (length L) ltac:(lia)) as (y & E & Hy). rewrite Hpre in E by lia. injection E as <-. rewrite lookup_ge_None_2 in Hy by lia. exfalso. apply (proj2 Hy); [lia|reflexivity].
      - destruct (Hlive n ltac:(lia)) as (y & E & Hy). rewrite Hpre in E by lia. injection E as <-. destruct (lookup_lt_is_Some_2 L n H1) as [x Hx]. rewrite Hx in Hy. assert (n < n)%nat by (apply Hy; discriminate). lia. }
    split.
    - set (evs := (fun p => EvConstruct (InSlot p)) <$> seq 0 (length L)).
      exists {| v_n := Z.of_nat (length L); v_data := q_data s; v_occ := q_occ s; v_locks := q_locks s; v_ev := evs |}. split; [|repeat split; cbn; auto].
      split; cbn [v_n v_data v_occ v_locks v_ev]; auto.
      + apply list_eq. intros i. destruct (decide (i < cap)%nat) as [Hi|Hi]; [|rewrite !lookup_ge_None_2 by (rewrite ?replicate_length; lia); reflexivity].
        rewrite lookup_replicate_2 by exact Hi. rewrite lk_Some by lia. destruct (Hr i Hi) as (-> & _). reflexivity.
      + intros p Hp. rewrite lk_Some by lia. apply (f_equal Some). destruct (Hr p Hp) as (_ & H2 & _). unfold vm in H2. rewrite Hlen.
        destruct (lk (q_occ s) p), (Z.ltb_spec (Z.of_nat p) (q_c s)); cbn in H2; try discriminate; symmetry; [apply bool_decide_eq_true_2|apply bool_decide_eq_false_2]; unfold n; lia.
      + intros _. unfold evs. rewrite slot_events_constructs. destruct (constructs_live (length L) 0 nothing ltac:(reflexivity)) as [C1 C2]. split; [exact C1|]. intros p. rewrite C2. cbn [nothing orb]. apply bool_decide_ext. lia.
    - rewrite <- Ek. split; [unfold n in Hlen; lia|]. split; [|exact HB]. intros H. destruct L; [reflexivity|]. cbn in *. unfold n in Hlen. lia.
  Qed.
End kernel.

Section history.
  Context {T : Type} `{EqDecision T} (opt : bool) (ord : nat -> list nat) (Hord : forall n, ord n ≡ₚ seq 0 n) (cap : nat) (Hcap : 0 < Z.of_nat cap <= INT_MAX).
  Lemma drep_le (v : vec T) (l : list T) k : drep opt cap v l k -> (length l <= cap)%nat /\ (0 < k -> length l = cap) /\ (k < 0 -> l = []).
  Proof. intros ((w & R & _) & H1 & H2 & _). split; [exact (r_le _ _ _ _ R)|auto]. Qed.
  Lemma history_ok (ps : list (phase (T:=T))) : forall v l k v', drep opt cap v l k -> history_run opt ord cap v ps v' -> (forall p, p ∈ ps -> phase_fits cap p) ->
    exists l' k', history_spec cap l k ps l' k' /\ drep opt cap v' l' k'.
  Proof.
    induction ps as [|p ps IH]; intros v l k v' D R Hf; [inversion R; subst; exists l, k; split; [constructor|exact D]|].
    inversion R as [|v0 p0 v1 ps0 v2 Hp HR]; subst. pose proof (Hf p ltac:(left)) as Hfp.
    assert (HP : exists l1 k1, phase_spec cap l k p l1 k1 /\ drep opt cap v1 l1 k1).
    { inversion Hp as [v0 ops rs v3 E|v0 progs s ls Rk Hq HB]; subst.
      - pose proof (drep_run opt ord Hord cap Hcap ops v l k D Hfp) as H. rewrite E in H. destruct (debt_run (Z.of_nat cap) l k ops) as [[[l1 k1] rs1]| |] eqn:Ed; [|discriminate|contradiction].
        destruct H as (v2 & E2 & D2). injection E2 as <- <-. exists l1, k1. split; [|exact D2]. split; [exact Ed|]. exact (drep_le _ _ _ D2).
      - pose proof (shared_rest opt ord Hord cap Hcap v l k D progs Hfp s ls Rk Hq HB) as D2. eexists _, _. split; [|exact D2]. split; [|exact (drep_le _ _ _ D2)].
        split; [|reflexivity]. exact (shared_conservation opt ord Hord cap v l k D progs Hfp s ls Rk). }
    destruct HP as (l1 & k1 & S1 & D1). destruct (IH v1 l1 k1 v' D1 HR (fun q Hq => Hf q (elem_of_list_further _ _ _ Hq))) as (l' & k' & S' & D'). exists l', k'. split; [econstructor; eassumption|exact D'].
  Qed.
  Lemma created v0 : vec_create (T:=T) (Z.of_nat cap) = Ret v0 -> drep opt cap v0 [] 0.
  Proof.
    intros E. destruct (rep_create (T:=T) opt ord Hord cap Hcap ltac:(lia)) as (v & E1 & R). rewrite E in E1. injection E1 as <-. split; [exists v0; split; [exact R|repeat split; lia]|]. cbn. pose proof (eq_refl : INT_MAX = 2 ^ 31 - 1). split; [lia|]. split; [auto|lia].
  Qed.
  Lemma vector_history v0 (ps : list (phase (T:=T))) v : vec_create (T:=T) (Z.of_nat cap) = Ret v0 -> history_run opt ord cap v0 ps v -> (forall p, p ∈ ps -> phase_fits cap p) ->
    exists l k, history_spec cap [] 0 ps l k /\ v_range v = Ret l /\ v_size v = Z.of_nat (length l) /\ (v_valid v = true <-> k = 0).
  Proof.
    intros E R Hf. destruct (history_ok ps v0 [] 0 v (created v0 E) R Hf) as (l & k & S & D). exists l, k. split; [exact S|].
    destruct (drep_facts opt ord Hord cap Hcap v l k D) as [F1 F2]. split; [exact F1|]. split; [|exact F2].
    destruct D as ((w & Rw & N) & H1 & H2 & _). exact (proj1 (VDebtProofs.drep_size opt ord Hord cap Hcap v w l k Rw N H1 H2)).
  Qed.
  Lemma vector_history_calls v0 (ps : list (phase (T:=T))) v : vec_create (T:=T) (Z.of_nat cap) = Ret v0 -> history_run opt ord cap v0 ps v -> (forall p, p ∈ ps -> phase_fits cap p) ->
    forall ops, (forall op, op ∈ ops -> op_fits (Z.of_nat cap) op) -> exists l k, history_spec cap [] 0 ps l k /\
    match debt_run (Z.of_nat cap) l k ops with
    | Ret (l', k', rs) => exists v', vec_run opt ord v ops = Ret (v', rs)
    | UB => vec_run opt ord v ops = UB
    | Hang => False
    end.
  Proof.
    intros E R Hf ops Ho. destruct (history_ok ps v0 [] 0 v (created v0 E) R Hf) as (l & k & S & D). exists l, k. split; [exact S|].
    pose proof (drep_run opt ord Hord cap Hcap ops v l k D Ho) as H. destruct (debt_run (Z.of_nat cap) l k ops) as [[[l1 k1] rs1]| |]; [|exact H|exact H].
    destruct H as (v2 & E2 & _). exists v2. exact E2.
  Qed.
  Lemma vector_history_kernel v0 (ps : list (phase (T:=T))) v : vec_create (T:=T) (Z.of_nat cap) = Ret v0 -> history_run opt ord cap v0 ps v -> (forall p, p ∈ ps -> phase_fits cap p) ->
    forall progs, (forall p op, p ∈ progs -> op ∈ p -> vector_call op) -> forall s ls, reach (qstep (vctl cap)) (as_shared v, q_start progs) (s, ls) ->
    (forall i t, ls !! i = Some t -> q_prog t <> [] -> qstep (vctl cap) i s t <> None) /\
    (forall i j ti tj p, ls !! i = Some ti -> ls !! j = Some tj -> element_access ti = Some p -> element_access tj = Some p -> i = j) /\
    (forall i t p, ls !! i = Some t -> element_access t = Some p -> (p < cap)%nat /\
       exists d, q_data s !! p = Some d /\ (q_pc t = QConstruct p -> d = None) /\ (q_pc t <> QConstruct p -> d <> None)) /\
    exists s' ls', reach (qstep (vctl cap)) (s, ls) (s', ls') /\ finished ls'.
  Proof.
    intros E R Hf progs Hwf s ls Rk. destruct (history_ok ps v0 [] 0 v (created v0 E) R Hf) as (l & k & S & D). exact (shared_access opt ord Hord cap v l k D progs Hwf s ls Rk).
  Qed.
End history.
