(** A stored key that no erase concerns: the entries from its bucket to its position stay linked and occupied in every mixture of inserts, erases and
    lookups (C80). *)
From Verif Require Import Base Conc SlotModel SlotSpec SlotProofs VectorModel VectorProofs UnorderedModel UnorderedSpec UnorderedProofs UConcModel UConcSpec UEraseModel UMixShape UOneDefs UAnyDefs.

Section keep.
  Context {K V : Type} (kf : V -> K) (hash : K -> Z) (keq : K -> K -> bool) (bc E : nat).
  Hypothesis HP : key_equality keq /\ hash_respects keq hash /\ sizes_ok bc E.
  Notation bkt := (bkt hash bc).
  Notation ainv M0 := (ainv kf hash keq bc E M0).
  Notation akn := (akn kf hash keq bc).
  Local Notation HB := (mx_bkt hash keq bc E HP).
  Local Notation hit := (UOneDefs.hit kf keq).
  Local Notation PL f I := (f kf hash keq bc E _ _ _ _ _ I) (only parsing).
  (** the key, its bucket, its value, its position, and the entries from the bucket to the position *)
  Context (k : K) (b : nat) (v0 : V) (p : nat) (path : list nat).
  Record keep_path : Prop := {
    kp_b : bkt k = b;
    kp_v : keq (kf v0) k = true;
    kp_hd : path !! 0%nat = Some b;
    kp_last : last path = Some p;
    kp_nodup : NoDup path;
    kp_tail : forall j y, path !! S j = Some y -> (bc <= y)%nat
  }.
  Hypothesis HPath : keep_path.
  Implicit Types (s : cshared V) (t : cthread K V) (op : cop K V).

  Definition inner (x : nat) : Prop := exists j y, path !! j = Some x /\ path !! S j = Some y.
  Definition prot (y : nat) : Prop := y = p \/ exists j, path !! S j = Some y.
  Record kept s : Prop := {
    q_link : forall j x y, path !! j = Some x -> path !! S j = Some y -> c_off s !! x = Some (Z.of_nat y - Z.of_nat x);
    q_occ : forall y, prot y -> c_occ s !! y = Some true;
    q_val : forall y, prot y -> exists v, c_values s !! y = Some (Some v) /\ bkt (kf v) = b /\ (keq (kf v) k = true -> y = p);
    q_p : c_values s !! p = Some (Some v0);
    q_head : p <> b -> c_occ s !! b = Some true -> exists v, c_values s !! b = Some (Some v) /\ keq (kf v) k = false
  }.
  (** the erases that do not concern the key *)
  Definition ok_op op : Prop := match op with CErase k' => bkt k' <> b \/ (p = b /\ keq k' k = false) | _ => True end.
  Definition ok_log (x : cop K V * cret) : Prop :=
    match x.1 with CFind k' => keq k' k = true -> x.2 = RFound (Some p) | CInsert v => keq (kf v) k = true -> x.2 = RNotInserted | CErase _ => True end.
  Definition fw (c : fctx) : Prop := match c with FInsL e _ => ~ inner e | _ => True end.
  Definition ew (c : ectx) : Prop := match c with EIns2 e => ~ inner e | _ => True end.
  Definition wf (pc : upc) : Prop :=
    match pc with
    | FOcc c _ | FVal c _ | FOff c _ | FAdd c _ => fw c
    | EOff c _ | EAdd c _ => ew c
    | POff _ i prev | PAdd _ i prev => prev = i
    | ILockL e | IPop e _ | IConL e _ | IOffL e _ | ICntL e _ | ISetL e _ | ILinkL e _ => ~ inner e
    | XTest _ q | XAdd1 _ q | XAdd2 _ q _ | XPut _ q _ => ~ inner q
    | _ => True
    end.
  Definition looks (c : fctx) : Prop := c = FUser \/ c = FIns1.
  Definition kw s (pc : upc) : Prop :=
    match pc with
    | UIdle | UFullCheck | UEmptyCheck => True
    | FOcc c i => looks c /\ i ∈ path
    | FVal c i => looks c /\ i ∈ path /\ c_occ s !! i = Some true
    | FOff c i | FAdd c i => looks c /\ inner i
    | _ => False
    end.
  Record keeps s t : Prop := {
    kt_prog : Forall ok_op (c_prog t);
    kt_log : Forall ok_log (c_log t);
    kt_wf : wf (c_pc t);
    kt_kw : forall op rest, c_prog t = op :: rest -> keq (op_key kf op) k = true -> kw s (c_pc t)
  }.

  Lemma b_lt : (b < bc)%nat. Proof using HP HPath. rewrite <- (kp_b HPath). apply HB. Qed.
  Lemma last_in : p ∈ path.
  Proof using HPath. pose proof (kp_last HPath) as H. rewrite last_lookup in H. eapply elem_of_list_lookup_2; exact H. Qed.
  Lemma in_cases x : x ∈ path -> x = p \/ inner x.
  Proof using HPath.
    intros H. apply elem_of_list_lookup in H as [j Hj]. destruct (path !! S j) as [y|] eqn:Hy; [right; exists j, y; auto|left].
    pose proof (kp_last HPath) as HL. rewrite last_lookup in HL. apply lookup_ge_None in Hy. pose proof (lookup_lt_Some _ _ _ Hj). replace (Nat.pred (length path)) with j in HL by lia. congruence.
  Qed.
  Lemma in_prot x : x ∈ path -> x = b \/ prot x.
  Proof using HPath. intros H. apply elem_of_list_lookup in H as [[|j] Hj]; [left; rewrite (kp_hd HPath) in Hj; congruence|right; right; eauto]. Qed.
  Lemma inner_p : ~ inner p.
  Proof using HPath.
    intros (j & y & Hj & Hy). pose proof (kp_last HPath) as HL. rewrite last_lookup in HL. pose proof (NoDup_lookup _ _ _ _ (kp_nodup HPath) Hj HL). apply lookup_lt_Some in Hy. lia.
  Qed.
  Lemma p_b_path : p = b -> path = [b].
  Proof using HPath.
    intros Hp. pose proof (kp_hd HPath) as H0. pose proof (kp_last HPath) as HL. rewrite last_lookup, Hp in HL. pose proof (NoDup_lookup _ _ _ _ (kp_nodup HPath) H0 HL) as H.
    destruct path as [|x [|y l]]; [discriminate|injection H0 as ->; reflexivity|cbn in H; lia].
  Qed.
  Lemma prot_range y : prot y -> y = b \/ (bc <= y)%nat.
  Proof using HPath. intros [-> |[j Hj]]; [|right; eapply kp_tail; eauto]. destruct (proj1 (elem_of_list_lookup _ _) last_in) as [[|j] Hj]; [left; rewrite (kp_hd HPath) in Hj; congruence|right; eapply kp_tail; eauto]. Qed.
  Lemma prot_b : prot b -> p = b.
  Proof using HP HPath. intros [H|[j Hj]]; [auto|]. pose proof (kp_tail HPath _ _ Hj). pose proof b_lt. lia. Qed.
  Lemma inner_off s x : kept s -> inner x -> exists y, c_off s !! x = Some (Z.of_nat y - Z.of_nat x) /\ y <> x /\ y ∈ path /\ prot y.
  Proof using HPath.
    intros Q (j & y & Hj & Hy). exists y. split; [exact (q_link _ Q j x y Hj Hy)|]. split; [|split; [eapply elem_of_list_lookup_2; exact Hy|right; eauto]].
    intros ->. pose proof (NoDup_lookup _ _ _ _ (kp_nodup HPath) Hj Hy). lia.
  Qed.
  Lemma prot_miss s y op k' : kept s -> prot y -> op = CErase k' -> ok_op op -> hit s y k' -> False.
  Proof using HP HPath.
    intros Q Hy -> Hok (w & Hw & Hk'). destruct (q_val _ Q y Hy) as (v & Hv & Hb & _). rewrite Hw in Hv. injection Hv as <-. destruct Hok as [Hok|[Hpb Hok]].
    - apply Hok. rewrite <- (mx_keq hash keq bc E HP _ _ Hk'). exact Hb.
    - pose proof (p_b_path Hpb) as Epath. assert (y = p) as -> by (destruct Hy as [H|[j Hj]]; [exact H|rewrite Epath in Hj; destruct j; discriminate]). pose proof (q_p _ Q) as H. rewrite Hw in H. injection H as ->. pose proof (kp_v HPath) as H1.
      destruct HP as ((K1 & K2 & K3) & _). rewrite (K3 k' (kf v0) k) in Hok; [discriminate|apply K2; exact Hk'|exact H1].
  Qed.

  (** what leaves the path as it is *)
  Definition mono s s' : Prop := forall x, x ∈ path -> c_occ s !! x = Some true -> c_occ s' !! x = Some true.
  Definition fine s s' : Prop := kept s' /\ mono s s'.
  Lemma fine_same s s' : kept s -> c_values s' = c_values s -> c_off s' = c_off s -> c_occ s' = c_occ s -> fine s s'.
  Proof using. intros [Q1 Q2 Q3 Q4 Q5] Ev Ef Eo. split; [split; rewrite ?Ev, ?Ef, ?Eo; assumption|]. unfold mono. rewrite Eo. auto. Qed.
  Lemma fine_value s x w : kept s -> c_occ s !! x = Some false -> fine s (put_value s x w).
  Proof using.
    intros Q Hx. assert (Hne : forall y, c_occ s !! y = Some true -> c_values (put_value s x w) !! y = c_values s !! y) by (intros y Hy; cbn; apply list_lookup_insert_ne; congruence).
    split; [|intros y _ Hy; exact Hy]. split.
    - exact (q_link _ Q).
    - exact (q_occ _ Q).
    - intros y Hy. rewrite Hne by exact (q_occ _ Q y Hy). exact (q_val _ Q y Hy).
    - rewrite Hne by (apply (q_occ _ Q); left; reflexivity). exact (q_p _ Q).
    - intros H1 H2. rewrite Hne by exact H2. exact (q_head _ Q H1 H2).
  Qed.
  Lemma fine_set s x : kept s -> c_occ s !! x = Some false -> (x = b -> exists v, c_values s !! b = Some (Some v) /\ keq (kf v) k = false) -> fine s (put_occ s x true).
  Proof using.
    intros Q Hx Hb. assert (Hm : forall y, c_occ s !! y = Some true -> c_occ (put_occ s x true) !! y = Some true) by (intros y Hy; cbn; rewrite list_lookup_insert_ne by congruence; exact Hy).
    split; [|intros y _ Hy; exact (Hm y Hy)]. split.
    - exact (q_link _ Q).
    - intros y Hy. apply Hm. exact (q_occ _ Q y Hy).
    - exact (q_val _ Q).
    - exact (q_p _ Q).
    - intros H1 H2. cbn in H2 |- *. destruct (decide (x = b)) as [Hxb|Hxb]; [exact (Hb Hxb)|]. rewrite list_lookup_insert_ne in H2 by exact Hxb. exact (q_head _ Q H1 H2).
  Qed.
  Lemma fine_reset s x : kept s -> ~ prot x -> x <> b -> fine s (put_occ s x false).
  Proof using HPath.
    intros Q Hx Hb. assert (Hm : forall y, y <> x -> c_occ (put_occ s x false) !! y = c_occ s !! y) by (intros y Hy; cbn; rewrite list_lookup_insert_ne by congruence; reflexivity).
    split.
    - split.
      + exact (q_link _ Q).
      + intros y Hy. rewrite Hm by (intros ->; contradiction). exact (q_occ _ Q y Hy).
      + exact (q_val _ Q).
      + exact (q_p _ Q).
      + intros H1 H2. rewrite Hm in H2 by congruence. exact (q_head _ Q H1 H2).
    - intros y Hy Hoc. rewrite Hm; [exact Hoc|]. intros ->. destruct (in_prot x Hy); contradiction.
  Qed.
  Lemma fine_off s x o : kept s -> ~ inner x -> fine s (put_off s x o).
  Proof using.
    intros Q Hx. split; [|intros y _ Hy; exact Hy]. split; try apply Q.
    intros j z y Hj Hy. cbn. rewrite list_lookup_insert_ne; [exact (q_link _ Q j z y Hj Hy)|]. intros ->. apply Hx. exists j, y. auto.
  Qed.
  (** what one thread knows stays true when another one steps *)
  Lemma keeps_mono s s' t : mono s s' -> keeps s t -> keeps s' t.
  Proof using.
    intros Hm [A1 A2 A3 A4]. split; auto. intros op rest Ep Ek. specialize (A4 op rest Ep Ek). destruct (c_pc t); cbn [kw] in *; auto. destruct A4 as (H1 & H2 & H3). auto.
  Qed.

  Section step.
    Context M0 s ls F P i t op rest (I : ainv M0 s ls F P) (Hi : ls !! i = Some t) (Ep : c_prog t = op :: rest) (Q : kept s) (T : keeps s t).
    Notation bo := (bkt (op_key kf op)).
    Definition good s' t' : Prop := fine s s' /\ keeps s' t'.
    Lemma ok_now : ok_op op.
    Proof using T Ep. pose proof (kt_prog _ _ T) as H. rewrite Ep in H. inversion H. assumption. Qed.
    Lemma t_go s' pc : wf pc -> (keq (op_key kf op) k = true -> kw s' pc) -> keeps s' (cgo t pc).
    Proof using T Ep. intros H1 H2. split; cbn [cgo c_prog c_log c_pc]; [apply T|apply T|exact H1|]. intros op' r' E' Ek. rewrite Ep in E'. injection E' as <- <-. auto. Qed.
    Lemma t_fin s' r : ok_log (op, r) -> keeps s' (cfinish t op r).
    Proof using T Ep.
      intros H. split; cbn [cfinish c_prog c_log c_pc wf kw]; auto.
      - pose proof (kt_prog _ _ T) as H1. rewrite Ep in H1 |- *. inversion H1. assumption.
      - apply Forall_app. split; [apply T|]. repeat constructor. exact H.
    Qed.
    Lemma t_again s' : keq (op_key kf op) k = false -> keeps s' (again t bo op).
    Proof using T Ep. intros Hk. pose proof (t_go s') as HG. destruct op as [v|k'|k']; cbn [again]; apply HG; cbn [wf fw]; auto; congruence. Qed.
    Lemma good_go pc : wf pc -> (keq (op_key kf op) k = true -> kw s pc) -> good s (cgo t pc).
    Proof using T Ep Q. intros H1 H2. split; [apply fine_same; auto|]. apply t_go; assumption. Qed.
    Lemma log_other r : keq (op_key kf op) k = false -> ok_log (op, r).
    Proof using. clear. intros H. destruct op; cbn [ok_log fst snd op_key] in *; auto; congruence. Qed.

    (** a call with the key itself *)
    Lemma own_step s' t' : keq (op_key kf op) k = true -> ustep kf hash keq bc E i s t = Some (s', t') -> good s' t'.
    Proof using HP HPath I Hi Ep Q T.
      intros Ek Hst. pose proof good_go as HGg. pose proof t_fin as HGf. pose proof ok_now as HGok. assert (HIf : c_pc t = UFullCheck \/ c_pc t = UEmptyCheck -> isI op) by (pose proof (PL a_thr I i t Hi) as H; unfold athr in H; rewrite Ep in H; intros [E0|E0]; rewrite E0 in H; exact H). assert (HFk : forall c x, c_pc t = FVal c x -> afk kf hash bc op c) by (pose proof (PL a_thr I i t Hi) as H; unfold athr in H; rewrite Ep in H; intros c x E0; rewrite E0 in H; apply H). pose proof (kt_kw _ _ T op rest Ep Ek) as Hw. unfold ustep in Hst. rewrite Ep, (mx_bucket hash keq bc E HP) in Hst.
      assert (Ebo : bo = b) by (rewrite (mx_keq hash keq bc E HP _ _ Ek); apply HPath).
      assert (Hb : b ∈ path) by (eapply elem_of_list_lookup_2; exact (kp_hd HPath)).
      assert (Hne : forall k', op <> CErase k'). { intros k' ->. pose proof HGok as H. cbn [ok_op op_key] in *. destruct H as [H|[_ H]]; congruence. }
      destruct (c_pc t) eqn:Epc; cbn [kw] in Hw; try contradiction.
      - injection Hst as <- <-. destruct op as [v|k'|k']; [|exfalso; eapply Hne; reflexivity|]; apply HGg; cbn [wf fw kw]; auto. intros _. split; [left; reflexivity|]. rewrite Ebo. exact Hb.
      - injection Hst as <- <-. case_match; [split; [apply fine_same; auto|]; apply HGf|apply HGg; cbn [wf kw]; auto]. destruct op; cbn [ok_log fst snd] in *; auto. exfalso. apply HIf; auto.
      - injection Hst as <- <-. case_match; [split; [apply fine_same; auto|]; apply HGf|apply HGg; cbn [wf fw kw]; auto].
        + destruct op; cbn [ok_log fst snd] in *; auto. exfalso. apply HIf; auto.
        + intros _. split; [right; reflexivity|]. rewrite Ebo. exact Hb.
      - (* FOcc *) destruct Hw as [Hc Hin]. destruct (c_occ s !! i0) as [[]|] eqn:Ho; [| |discriminate]; injection Hst as <- <-; apply HGg; cbn [wf kw]; auto; try (destruct Hc as [-> | ->]; exact Logic.I).
        intros _. split; [exact Hc|]. destruct (in_cases i0 Hin) as [-> |H]; [|exact H]. rewrite (q_occ _ Q) in Ho by (left; reflexivity). discriminate.
      - (* FVal *) destruct Hw as (Hc & Hin & Ho).
        assert (HV : exists v, c_values s !! i0 = Some (Some v) /\ (keq (kf v) k = true -> i0 = p)).
        { assert (Hp : prot i0 -> exists v, c_values s !! i0 = Some (Some v) /\ (keq (kf v) k = true -> i0 = p)) by (intros Hp; destruct (q_val _ Q i0 Hp) as (v & H1 & _ & H3); eauto).
          destruct (in_prot i0 Hin) as [Hb0|H]; [|auto]. destruct (decide (p = b)) as [Hpb|Hpb]; [apply Hp; left; congruence|]. rewrite Hb0 in *.
          destruct (q_head _ Q Hpb Ho) as (v & H1 & H2). exists v. split; [exact H1|congruence]. }
        destruct HV as (v & Hv & Hp). rewrite Hv in Hst. injection Hst as <- <-. destruct HP as ((K1 & K2 & K3) & _). destruct (keq (kf v) (op_key kf op)) eqn:Ekv.
        + rewrite (Hp (K3 _ _ _ Ekv Ek)). destruct Hc as [-> | ->]; cbn [after_find]; (split; [apply fine_same; auto|]); apply HGf.
          * destruct op; cbn [ok_log fst snd] in *; auto. exfalso. exact (HFk _ _ eq_refl).
          * destruct op; cbn [ok_log fst snd] in *; auto. exfalso. exact (HFk _ _ eq_refl).
        + apply HGg; cbn [wf kw]; [destruct Hc as [-> | ->]; exact Logic.I|]. intros _. split; [exact Hc|]. destruct (in_cases i0 Hin) as [-> |H]; [|exact H]. exfalso.
          pose proof (q_p _ Q) as H. rewrite Hv in H. injection H as ->. rewrite (K3 _ _ _ (kp_v HPath) (K2 _ _ Ek)) in Ekv. discriminate.
      - (* FOff *) destruct Hw as (Hc & Hin). destruct (inner_off s i0 Q Hin) as (y & Hy & Hne' & Hyp & _). rewrite Hy in Hst. rewrite (proj2 (Z.eqb_neq _ _)) in Hst by lia. injection Hst as <- <-. apply HGg; cbn [wf kw]; auto. destruct Hc as [-> | ->]; exact Logic.I.
      - (* FAdd *) destruct Hw as (Hc & Hin). destruct (inner_off s i0 Q Hin) as (y & Hy & Hne' & Hyp & _). rewrite Hy in Hst. unfold next_entry in Hst. rewrite (proj2 (Z.leb_le _ _)) in Hst by lia. injection Hst as <- <-.
        replace (Z.of_nat i0 + (Z.of_nat y - Z.of_nat i0)) with (Z.of_nat y) by lia. rewrite Nat2Z.id. apply HGg; cbn [wf kw]; auto. destruct Hc as [-> | ->]; exact Logic.I.
    Qed.
    (** a call with another key *)
    Lemma g_hand_occ x : x ∈ hndt t -> (bc <= x)%nat /\ c_occ s !! x = Some false.
    Proof using I Hi. intros Hx. exact (g_hand kf hash keq bc E _ s ls F P I i t x Hi Hx). Qed.
    Ltac tgo g := apply g; cbn [wf fw ew]; auto; congruence.
    Ltac ggo g := apply g; cbn [wf fw ew]; auto; congruence.
    Ltac gfine g H := split; [exact H|]; tgo g.
    Lemma other_step s' t' : keq (op_key kf op) k = false -> ustep kf hash keq bc E i s t = Some (s', t') -> good s' t'.
    Proof using HP HPath I Hi Ep Q T.
      intros Ek Hst. pose proof t_go as HGt. pose proof good_go as HGg. pose proof ok_now as HGok. pose proof (kt_wf _ _ T) as Hw. pose proof (PL a_thr I i t Hi) as Hk. unfold athr in Hk. rewrite Ep in Hk. unfold ustep in Hst. rewrite Ep, (mx_bucket hash keq bc E HP) in Hst. pose proof b_lt as Hblt. pose proof (HB (op_key kf op)) as Hbo.
      assert (HF : forall c r, fw c -> good s (after_find t op bo c r)).
      { intros c r Hc. assert (Hfin : forall x, good s (cfinish t op x)) by (intros x; split; [apply fine_same; auto|]; apply t_fin; apply log_other; exact Ek).
        destruct c; cbn [after_find fw] in *; [apply Hfin|destruct r; [apply Hfin|ggo HGg]|destruct r; ggo HGg|destruct r; [ggo HGg|case_bool_decide; ggo HGg]|destruct r; [case_bool_decide; ggo HGg|apply Hfin]|case_bool_decide; ggo HGg|ggo HGg]. }
      assert (HS : forall s2 pc, c_values s2 = c_values s -> c_off s2 = c_off s -> c_occ s2 = c_occ s -> wf pc -> good s2 (cgo t pc)) by (intros s2 pc E1 E2 E3 Hpc; split; [apply fine_same; auto|]; apply t_go; auto; congruence).
      assert (HA : forall s2, c_values s2 = c_values s -> c_off s2 = c_off s -> c_occ s2 = c_occ s -> good s2 (again t bo op)) by (intros s2 E1 E2 E3; split; [apply fine_same; auto|]; apply t_again; exact Ek).
      assert (HN : forall s2 r, c_values s2 = c_values s -> c_off s2 = c_off s -> c_occ s2 = c_occ s -> good s2 (cfinish t op r)) by (intros s2 r E1 E2 E3; split; [apply fine_same; auto|]; apply t_fin; apply log_other; exact Ek).
      assert (HZ : forall x, c_off s !! x = Some 0 -> ~ inner x). { intros x Hx Hin. destruct (inner_off s x Q Hin) as (y & Hy & Hne & _). rewrite Hx in Hy. injection Hy as Hy. lia. }
      destruct (c_pc t) as [| | |c x|c x|c x|c x|c x|c x|c x pv|c x pv| | | | | | |r|e|e q|e p'|e p'|e p'|e p'|e p'|e r|p'|p'|p'|p'|p' ok|p' q|p' q|p'|p' q|p' q|p' q o|p' q o|p' q|p' q|p' q|p' q x|p' q ok|q ok] eqn:Epc; cbn [UAnyDefs.akn] in Hk; cbn [wf] in Hw.
      - injection Hst as <- <-. destruct op; ggo HGg.
      - injection Hst as <- <-. case_match; [apply HN; reflexivity|ggo HGg].
      - injection Hst as <- <-. case_match; [apply HN; reflexivity|ggo HGg].
      - (* FOcc *) destruct (c_occ s !! x) as [o|] eqn:Ho; [|discriminate]. injection Hst as <- <-. destruct o; ggo HGg.
      - destruct (c_values s !! x) as [[v|]|] eqn:Hv; try discriminate. injection Hst as <- <-. destruct (keq (kf v) (op_key kf op)); [apply HF; exact Hw|ggo HGg].
      - destruct (c_off s !! x) as [o|] eqn:Ho; [|discriminate]. injection Hst as <- <-. destruct (o =? 0); [apply HF; exact Hw|ggo HGg].
      - destruct (c_off s !! x) as [o|] eqn:Ho; [|discriminate]. destruct (next_entry x o); [|discriminate]. injection Hst as <- <-. ggo HGg.
      - (* EOff *) destruct (c_off s !! x) as [o|] eqn:Ho; [|discriminate]. injection Hst as <- <-. destruct (o =? 0) eqn:Hz; [|destruct c; ggo HGg]. apply Z.eqb_eq in Hz as ->. destruct c; cbn [after_end ew] in *; apply HGg; cbn [wf fw]; auto; congruence.
      - destruct (c_off s !! x) as [o|] eqn:Ho; [|discriminate]. destruct (next_entry x o); [|discriminate]. injection Hst as <- <-. destruct c; ggo HGg.
      - (* POff *) destruct Hk as [H1 H2]. subst pv. destruct (c_off s !! x) as [o|] eqn:Ho; [|discriminate]. injection Hst as <- <-. destruct (o =? 0) eqn:Hz; [|ggo HGg]. apply Z.eqb_eq in Hz as ->.
        destruct c as [p'|p' q same]; cbn [after_prev]; [ggo HGg|]. destruct (same && bool_decide (q = x)) eqn:Es; [|ggo HGg]. apply andb_prop in Es as [_ Es]. apply bool_decide_eq_true in Es as ->. apply HGg; [cbn [wf]; auto|congruence].
      - (* PAdd *) destruct Hk as [H1 H2]. subst pv. destruct (c_off s !! x) as [o|] eqn:Ho; [|discriminate]. destruct (next_entry x o) as [j|] eqn:Hj; [|discriminate]. injection Hst as <- <-. case_bool_decide as Hd; [|ggo HGg].
        destruct c as [p'|p' q same]; cbn [after_prev entry_of apk] in *; [ggo HGg|]. destruct (same && bool_decide (q = x)) eqn:Es; [|ggo HGg]. apply andb_prop in Es as [Es1 Es]. apply bool_decide_eq_true in Es as ->. apply HGg; [cbn [wf]|congruence].
        destruct H2 as [H2 H3]. destruct (H3 Es1) as [Hoc Hh]. intros Hin. destruct (inner_off s x Q Hin) as (y & Hy & Hne & Hyp & Hpr). rewrite Ho in Hy. injection Hy as ->. unfold next_entry in Hj.
        rewrite (proj2 (Z.leb_le _ _)) in Hj by lia. injection Hj as Hj. assert (y = p') as -> by lia. destruct op as [|k'|]; try contradiction. exact (prot_miss s p' _ k' Q Hpr eq_refl HGok Hh).
      - (* IOcc *) destruct (c_occ s !! bo) as [o|] eqn:Ho; [|discriminate]. injection Hst as <- <-. destruct o; ggo HGg.
      - destruct (c_locks s !! bo) as [[]|] eqn:Ho; [| |discriminate]; injection Hst as <- <-; [apply HA; reflexivity|apply HS; try reflexivity; exact Logic.I].
      - destruct (c_occ s !! bo) as [o|] eqn:Ho; [|discriminate]. injection Hst as <- <-. destruct o; ggo HGg.
      - (* IConB *) destruct Hk as [H1 H2]. destruct op as [v| |]; try contradiction. destruct (c_values s !! _) as [o|] eqn:Ho; [|discriminate]. injection Hst as <- <-. gfine HGt (fine_value s _ (Some v) Q H2).
      - injection Hst as <- <-. apply HS; try reflexivity; exact Logic.I.
      - (* ISetB *) destruct Hk as [H1 H2]. rewrite H2 in Hst. injection Hst as <- <-. destruct op as [v| |]; try contradiction. cbn [own_value op_key] in *. split; [|tgo HGt]. apply fine_set; auto. intros Hb. rewrite Hb in H1. exists v. auto.
      - destruct (c_locks s !! bo) as [o|] eqn:Ho; [|discriminate]. injection Hst as <- <-. destruct r; [apply HN; reflexivity|apply HA; reflexivity].
      - (* ILockL *) destruct (c_locks s !! e) as [[]|] eqn:Ho; [| |discriminate]; injection Hst as <- <-; [apply HA; reflexivity|apply HS; try reflexivity; exact Hw].
      - (* IPop *) destruct (qstep (vctl E) i (c_ex s) q) as [[y q']|] eqn:Hq; [|discriminate].
        assert (Hcases : s' = put_ex s y /\ exists pc, t' = cgo t pc /\ wf pc).
        { destruct (q_prog q'); [|injection Hst as <- <-; eauto]. destruct (last (q_log q')) as [[]|]; repeat case_match; try discriminate; injection Hst as <- <-; (split; [reflexivity|]; eexists; split; [reflexivity|]; cbn [wf]; auto). }
        destruct Hcases as (-> & pc & -> & Hpc). apply HS; try reflexivity. exact Hpc.
      - (* IConL *) destruct op as [v| |]; try contradiction. destruct (c_values s !! p') as [o|] eqn:Ho; [|discriminate]. injection Hst as <- <-. destruct (g_hand_occ p') as [H1 H2]; [unfold hndt; rewrite Epc; left|]. gfine HGt (fine_value s p' (Some v) Q H2).
      - (* IOffL *) destruct (c_off s !! p') as [o|] eqn:Ho; [|discriminate]. injection Hst as <- <-. destruct (g_hand_occ p') as [H1 H2]; [unfold hndt; rewrite Epc; left|]. split; [|tgo HGt]. apply fine_off; [exact Q|]. intros Hin.
        destruct Hin as (j & y & Hj & _). assert (Hin : p' ∈ path) by (eapply elem_of_list_lookup_2; exact Hj). destruct (in_prot p' Hin) as [-> |Hp]; [lia|]. rewrite (q_occ _ Q p' Hp) in H2. discriminate.
      - injection Hst as <- <-. apply HS; try reflexivity; exact Hw.
      - (* ISetL *) destruct (g_hand_occ p') as [H1 H2]; [unfold hndt; rewrite Epc; left|]. rewrite H2 in Hst. injection Hst as <- <-. split; [|tgo HGt]. apply fine_set; auto. intros ->. lia.
      - (* ILinkL *) destruct (c_off s !! e) as [o|] eqn:Ho; [|discriminate]. injection Hst as <- <-. split; [|tgo HGt]. apply fine_off; auto.
      - destruct (c_locks s !! e) as [o|] eqn:Ho; [|discriminate]. injection Hst as <- <-. destruct r; [apply HN; reflexivity|apply HA; reflexivity].
      - (* XLockB *) destruct (c_locks s !! p') as [[]|] eqn:Ho; [| |discriminate]; injection Hst as <- <-; [apply HA; reflexivity|apply HS; try reflexivity; exact Logic.I].
      - (* XResetB *) destruct Hk as (H1 & -> & H3 & H4). rewrite H3 in Hst. injection Hst as <- <-. split; [|tgo HGt]. destruct op as [|k'|]; try contradiction. pose proof HGok as Hok. assert (Hnp : ~ prot (bkt (op_key kf (CErase k' : cop K V)))) by (intros Hpr; exact (prot_miss s _ _ k' Q Hpr eq_refl Hok H4)).
        apply fine_reset; auto. cbn [ok_op op_key] in *. intros Hbb. destruct Hok as [Hok|[Hpb Hok]]; [contradiction|]. apply Hnp. left. congruence.
      - injection Hst as <- <-. apply HS; try reflexivity; exact Logic.I.
      - (* XDesB *) destruct Hk as (H1 & -> & H3). destruct (c_values s !! bo) as [[v|]|] eqn:Ho; try discriminate. injection Hst as <- <-. gfine HGt (fine_value s _ None Q H3).
      - destruct (c_locks s !! p') as [o|] eqn:Ho; [|discriminate]. injection Hst as <- <-. destruct ok; [apply HN; reflexivity|apply HA; reflexivity].
      - destruct (c_locks s !! p') as [[]|] eqn:Ho; [| |discriminate]; injection Hst as <- <-; [apply HA; reflexivity|apply HS; try reflexivity; exact Logic.I].
      - destruct (c_locks s !! q) as [[]|] eqn:Ho; [| |discriminate]; injection Hst as <- <-; apply HS; try reflexivity; exact Logic.I.
      - destruct (c_locks s !! p') as [o|] eqn:Ho; [|discriminate]. injection Hst as <- <-. apply HA; reflexivity.
      - (* XTest *) destruct (c_off s !! p') as [o|] eqn:Ho; [|discriminate]. injection Hst as <- <-. destruct (o =? 0); ggo HGg.
      - destruct (c_off s !! p') as [o|] eqn:Ho; [|discriminate]. injection Hst as <- <-. ggo HGg.
      - destruct (c_off s !! q) as [o'|] eqn:Ho; [|discriminate]. injection Hst as <- <-. ggo HGg.
      - (* XPut *) destruct (c_off s !! q) as [o'|] eqn:Ho; [|discriminate]. injection Hst as <- <-. split; [|tgo HGt]. apply fine_off; auto.
      - (* XReset *) destruct Hk as (H1 & H2 & H3 & H4). rewrite H3 in Hst. injection Hst as <- <-. split; [|tgo HGt]. destruct op as [|k'|]; try contradiction. pose proof HGok as Hok. apply fine_reset; auto.
        + intros Hpr. exact (prot_miss s _ _ k' Q Hpr eq_refl Hok H4).
        + intros ->. destruct H4 as (v & Hv & Hkv). apply H2. rewrite <- (mx_keq hash keq bc E HP _ _ Hkv). symmetry. exact (PL a_head I b v Hblt H3 Hv).
      - injection Hst as <- <-. apply HS; try reflexivity; exact Logic.I.
      - (* XDes *) destruct (c_values s !! p') as [[v|]|] eqn:Ho; try discriminate. injection Hst as <- <-. destruct (g_hand_occ p') as [G1 G2]; [unfold hndt; rewrite Epc; left|]. gfine HGt (fine_value s p' None Q G2).
      - (* XPush *) destruct (qstep (vctl E) i (c_ex s) x) as [[y x']|] eqn:Hq; [|discriminate]. injection Hst as <- <-. apply HS; try reflexivity. case_match; exact Logic.I.
      - destruct (c_locks s !! p') as [o|] eqn:Ho; [|discriminate]. injection Hst as <- <-. apply HS; try reflexivity; exact Logic.I.
      - destruct (c_locks s !! q) as [o|] eqn:Ho; [|discriminate]. injection Hst as <- <-. destruct ok; [apply HN; reflexivity|apply HA; reflexivity].
    Qed.
    Lemma keep_ustep s' t' : ustep kf hash keq bc E i s t = Some (s', t') -> good s' t'.
    Proof using HP HPath I Hi Ep Q T. destruct (keq (op_key kf op) k) eqn:Ek; [apply own_step; exact Ek|apply other_step; exact Ek]. Qed.
    Lemma keep_estep s' t' : estep kf hash keq bc E i s t = Some (s', t') -> good s' t'.
    Proof using HP HPath I Hi Ep Q T.
      pose proof keep_ustep as HU. unfold estep. destruct (c_pc t) eqn:Epc; try apply HU; rewrite Ep; destruct (c_values s !! p0) as [[v|]|]; try discriminate; intros Hst; injection Hst as <- <-;
        (apply good_go; [exact Logic.I|]; intros Ek; pose proof (kt_kw _ _ T op rest Ep Ek) as Hw; rewrite Epc in Hw; destruct Hw).
    Qed.
    (** a lookup of the key always has a next step *)
    Lemma keep_defined : keq (op_key kf op) k = true -> (exists k', op = CFind k') -> ustep kf hash keq bc E i s t <> None.
    Proof using HP HPath I Hi Ep Q T.
      intros Ek [k' ->]. pose proof (kt_kw _ _ T _ rest Ep Ek) as Hw. unfold ustep. rewrite Ep, (mx_bucket hash keq bc E HP).
      destruct (c_pc t) eqn:Epc; cbn [kw] in Hw; try contradiction; try discriminate.
      - destruct Hw as [_ Hin]. assert (Hl : (i0 < length (c_occ s))%nat).
        { destruct (in_prot i0 Hin) as [-> |Hp]; [|eapply lookup_lt_Some; exact (q_occ _ Q _ Hp)]. destruct (PL a_len I) as (_ & -> & _). pose proof b_lt. lia. }
        destruct (lookup_lt_is_Some_2 _ _ Hl) as [o ->]. discriminate.
      - destruct Hw as (_ & Hin & Ho). destruct (PL a_val I i0 Ho) as [v ->]. discriminate.
      - destruct Hw as [_ Hin]. destruct (inner_off s i0 Q Hin) as (y & -> & _). discriminate.
      - destruct Hw as [_ Hin]. destruct (inner_off s i0 Q Hin) as (y & -> & _). unfold next_entry. rewrite (proj2 (Z.leb_le _ _)) by lia. discriminate.
    Qed.
  End step.
End keep.
