(** One pushing and one popping thread: a bounded queue, whatever the number of calls. *)
From Verif Require Import Base Conc AtomicModel SlotModel SlotSpec SlotProofs VectorModel DequeModel DequeSpec DequeProofs DequeConcProofs FifoSpec FifoProofs.

Lemma bounded_snoc {T} cap (M : list T) h M2 j x M3 : bounded cap M h M2 -> bounded_call cap M2 x M3 -> bounded cap M (h ++ [(j, x)]) M3.
Proof.
  revert M. induction h as [|[i y] h IH]; intros M; cbn [bounded app].
  - intros -> Hc. exists M3. auto.
  - intros (Ma & H1 & H2) Hc. exists Ma. split; [exact H1|]. apply IH; assumption.
Qed.

Section pair.
  Context {T : Type} (cap b : nat) (l : list T) (Hb : (b < cap)%nat) (Hcap : Z.of_nat cap <= INT_MAX) (Hl : (length l <= cap)%nat).
  Context (prod cons : list (qop T)).
  Context (Hprod : forall op, op ∈ prod -> exists x, op = QPush KPushBack x) (Hcons : forall op, op ∈ cons -> op = QPop KPopFront).
  Notation progs := [prod; cons].
  Notation step := (qstep (T:=T) (dctl cap)).
  Notation start := (deq_conc_start cap b l, q_start progs).
  Implicit Types (s : qshared T dcnt) (t tp tc : qthread T) (W : list T) (H : list (nat * (qop T * qres T))).
  Definition sl (k : nat) : nat := (b + k) mod cap.
  Lemma sl_lt k : (sl k < cap)%nat.
  Proof using Hb. apply Nat.mod_upper_bound. clear -Hb. lia. Qed.
  Lemma sl_inj j j' : sl j = sl j' -> (j < j' + cap)%nat -> (j' < j + cap)%nat -> j = j'.
  Proof using Hb.
    clear -Hb. unfold sl. intros E H1 H2. pose proof (Nat.div_mod (b + j) cap ltac:(lia)) as D1. pose proof (Nat.div_mod (b + j') cap ltac:(lia)) as D2. rewrite E in D1.
    assert ((b + j) / cap = (b + j') / cap)%nat by nia. nia.
  Qed.
  Lemma sl_wrap j : sl (j + cap) = sl j.
  Proof using Hb. clear -Hb. unfold sl. replace (b + (j + cap))%nat with (b + j + 1 * cap)%nat by lia. apply Nat.mod_add. lia. Qed.

  (** the running push has not yet set its slot, the running pop not yet reset it, though they are counted *)
  Definition lp (pc : qpc T) : nat := match pc with QCtl 2 | QTry _ | QCheck _ | QConstruct _ | QSet _ | QUnlock _ None => 1 | _ => 0 end.
  Definition lc (pc : qpc T) : nat := match pc with QCtl 2 | QTry _ | QCheck _ | QReset _ | QUnlock _ None => 1 | _ => 0 end.
  Definition c2 (pc : qpc T) : nat := match pc with QCtl 2 => 1 | _ => 0 end.
  Definition counted (pc : qpc T) : bool := match pc with QIdle | QCtl 0 | QCtl 1 => false | _ => true end.
  Definition emit (v : option T) (t : qthread T) : list (qop T * qres T) :=
    match q_prog t, v, counted (q_pc t) with
    | QPush k x :: _, _, true => [(QPush k x, Pushed x)]
    | QPop k :: _, Some y, true => [(QPop k, Popped y)]
    | _, _, _ => []
    end.
  Definition acct H (j : nat) (prog : list (qop T)) (t : qthread T) (v : option T) : Prop :=
    exists past, prog = past ++ q_prog t /\ length past = length (q_log t) /\ calls_by j H = zip past (q_log t) ++ emit v t.

  Record pinv s tp tc W (R : nat) H : Prop := {
    p_cnt : (lp (q_pc tp) <= length W)%nat /\ (lc (q_pc tc) <= R)%nat /\ (R - lc (q_pc tc) <= length W - lp (q_pc tp))%nat /\ (length W - lp (q_pc tp) <= R - lc (q_pc tc) + cap)%nat;
    p_n : c_n (q_c s) = Z.of_nat (length W) - Z.of_nat R /\ (R <= length W)%nat /\ (length W <= R + cap)%nat;
    p_end : c_end (q_c s) = Z.of_nat (sl (length W - c2 (q_pc tp)));
    p_begin : c_begin (q_c s) = Z.of_nat (sl (R - c2 (q_pc tc)));
    p_posp : forall p, claimed_at (q_pc tp) = Some p -> p = sl (length W - 1) /\ exists x, last W = Some x /\ exists k rest, q_prog tp = QPush k x :: rest;
    p_pend : q_pc tp = QCtl 2 -> exists x, last W = Some x /\ exists k rest, q_prog tp = QPush k x :: rest;
    p_posc : forall p, claimed_at (q_pc tc) = Some p -> p = sl (R - 1);
    p_pos : counted (q_pc tp) = true /\ (0 < length W)%nat \/ counted (q_pc tp) = false;
    p_posR : counted (q_pc tc) = true /\ (0 < R)%nat \/ counted (q_pc tc) = false;
    p_occ : forall p, (p < cap)%nat -> lk (q_occ s) p = true <-> exists j, (R - lc (q_pc tc) <= j < length W - lp (q_pc tp))%nat /\ sl j = p;
    p_data : forall j, (R - lc (q_pc tc) <= j < length W - lp (q_pc tp))%nat -> lkd (q_data s) (sl j) = W !! j;
    p_set : forall p, q_pc tp = QSet p -> lkd (q_data s) p = last W;
    p_read : forall p, q_pc tc = QRead p -> lkd (q_data s) p = W !! (R - 1)%nat;
    p_got : forall p y, q_pc tc = QDestroy p y \/ q_pc tc = QUnlock p (Some (Popped y)) -> W !! (R - 1)%nat = Some y;
    p_gatep : q_pc tp = QCtl 1 -> (length W < R + cap)%nat;
    p_gatec : q_pc tc = QCtl 1 -> (R < length W)%nat;
    p_accp : acct H 0 prod tp None;
    p_accc : acct H 1 cons tc (W !! (R - 1)%nat);
    p_dom : forall x, x ∈ H -> (x.1 < 2)%nat;
    p_fifo : bounded cap l H (drop R W)
  }.
  (** what the invariant of SlotProofs.v says *)
  Record pfacts s tp tc : Prop := {
    g_len : length (q_data s) = cap /\ length (q_occ s) = cap /\ length (q_locks s) = cap;
    g_tokp : tok cap tp; g_tokc : tok cap tc;
    g_locp : local_ok s tp; g_locc : local_ok s tc;
    g_excl : forall p, (p < cap)%nat -> incs p tp + incs p tc <= 1
  }.
  Lemma pair_wf : forall p op, p ∈ progs -> op ∈ p -> op_wf op.
  Proof using Hprod Hcons.
    clear -Hprod Hcons. intros p op Hp Ho. apply elem_of_cons in Hp as [-> |Hp]; [destruct (Hprod op Ho) as [x ->]; reflexivity|]. apply elem_of_list_singleton in Hp as ->. rewrite (Hcons op Ho). reflexivity.
  Qed.
  Lemma pair_facts s ls : reach step start (s, ls) -> exists tp tc, ls = [tp; tc] /\ pfacts s tp tc.
  Proof using Hb Hcap Hl Hprod Hcons.
    intros R. destruct (dreach_inv cap b l Hb Hcap Hl progs pair_wf s ls R) as (sg & -> & _ & I).
    assert (HL : length ls = 2%nat).
    { refine (invariant step (fun c => length c.2 = 2%nat) _ start (er_s g_c sg, ls) eq_refl R). intros c c' Hc Hs. destruct Hs. cbn in *. rewrite insert_length. exact Hc. }
    destruct ls as [|tp [|tc [|]]]; try discriminate. exists tp, tc. split; [reflexivity|]. split.
    - apply I.
    - apply (i_tok _ _ _ _ _ _ I). left.
    - apply (i_tok _ _ _ _ _ _ I). right. left.
    - apply (i_loc _ _ _ _ _ _ I). left.
    - apply (i_loc _ _ _ _ _ _ I). right. left.
    - intros p Hp. exact (excl cap (gm cap) (gok cap) _ _ _ 0%nat 1%nat tp tc p I Hp ltac:(discriminate) eq_refl eq_refl).
  Qed.
  Lemma pinv_start : pinv (deq_conc_start cap b l) {| q_prog := prod; q_pc := QIdle; q_log := [] |} {| q_prog := cons; q_pc := QIdle; q_log := [] |} l 0 [].
  Proof using Hb Hl.
    clear -Hb Hl. split; cbn [q_pc q_prog q_log lp lc c2 counted claimed_at]; try discriminate; try (intros ? ?; discriminate); auto.
    - lia.
    - cbn. lia.
    - cbn. unfold sl. repeat f_equal. lia.
    - cbn. unfold sl. rewrite Nat.add_0_r, Nat.mod_small by exact Hb. reflexivity.
    - intros p Hp. rewrite (proj2 (dstart_lookup cap b l p Hp)), bool_decide_eq_true. split.
      + intros Hd. exists (ring_dist cap b p). split; [lia|]. unfold sl, ring_dist in *. destruct (Nat.ltb_spec p b).
        * replace (b + (p + cap - b))%nat with (p + 1 * cap)%nat by lia. rewrite Nat.mod_add by lia. apply Nat.mod_small. exact Hp.
        * replace (b + (p - b))%nat with p by lia. apply Nat.mod_small. exact Hp.
      + intros (j & Hj & <-). unfold sl, ring_dist. destruct (decide (b + j < cap)%nat).
        * rewrite Nat.mod_small by lia. destruct (Nat.ltb_spec (b + j) b); lia.
        * replace (b + j)%nat with (b + j - cap + 1 * cap)%nat by lia. rewrite Nat.mod_add, Nat.mod_small by lia. destruct (Nat.ltb_spec (b + j - cap) b); lia.
    - intros j Hj. assert (Hs : (sl j < cap)%nat) by (apply sl_lt; exact Hb). rewrite (proj1 (dstart_lookup cap b l _ Hs)). f_equal. clear Hs. unfold sl, ring_dist. destruct (decide (b + j < cap)%nat).
      + rewrite Nat.mod_small by lia. destruct (Nat.ltb_spec (b + j) b); lia.
      + replace (b + j)%nat with (b + j - cap + 1 * cap)%nat by lia. rewrite Nat.mod_add, Nat.mod_small by lia. destruct (Nat.ltb_spec (b + j - cap) b); lia.
    - intros p y [?|?]; discriminate.
    - exists []. cbn. unfold emit. cbn. destruct prod as [|[]]; auto.
    - exists []. cbn. unfold emit. cbn. destruct cons as [|[]]; auto. destruct (l !! 0%nat); auto.
    - intros x Hx. inversion Hx.
    - cbn. reflexivity.
  Qed.

  Lemma acct_goto H j prog t v pc : acct H j prog t v -> counted pc = counted (q_pc t) -> acct H j prog (goto t pc) v.
  Proof using Type. intros (past & A1 & A2 & A3) Hc. exists past. cbn [q_prog q_log goto]. unfold emit in *. cbn [q_prog q_pc goto]. rewrite Hc. auto. Qed.
  Lemma acct_other H j j' prog t v x : acct H j prog t v -> j' <> j -> acct (H ++ [(j', x)]) j prog t v.
  Proof using Type. intros (past & A1 & A2 & A3) Hj. exists past. rewrite calls_by_app, calls_by_one, decide_False, app_nil_r by exact Hj. auto. Qed.
  Lemma acct_val H j prog t v v' : acct H j prog t v -> (counted (q_pc t) = true -> v' = v) -> acct H j prog t v'.
  Proof using Type.
    intros (past & A1 & A2 & A3) Hv. exists past. split; [exact A1|]. split; [exact A2|]. rewrite A3. f_equal. unfold emit. destruct (q_prog t) as [|[]]; [reflexivity| |].
    - destruct (counted (q_pc t)); [rewrite ?Hv by reflexivity; reflexivity|]. destruct v, v'; reflexivity.
    - destruct (counted (q_pc t)); [rewrite ?Hv by reflexivity; reflexivity|]. destruct v, v'; reflexivity.
  Qed.
  Lemma acct_reject H j prog t v op rest r : acct H j prog t v -> counted (q_pc t) = false -> q_prog t = op :: rest -> acct (H ++ [(j, (op, r))]) j prog (finish t r) v.
  Proof using Type.
    intros (past & A1 & A2 & A3) Hc Hp. exists (past ++ [op]). cbn [q_prog q_log finish]. rewrite Hp in *. cbn [tail]. split; [rewrite <- app_assoc; exact A1|]. split; [rewrite !app_length, A2; reflexivity|].
    rewrite calls_by_app, calls_by_one, decide_True by reflexivity. unfold emit in *. cbn [q_prog q_pc finish counted]. rewrite Hp, Hc in *. rewrite zip_snoc by exact A2. rewrite A3. cbn [tail].
    destruct op, v, rest as [|[]]; rewrite !app_nil_r; reflexivity.
  Qed.
  Lemma acct_done H j prog t v op rest r : acct H j prog t v -> counted (q_pc t) = true -> q_prog t = op :: rest ->
    match op with QPush _ x => r = Pushed x | QPop _ => exists y, v = Some y /\ r = Popped y end -> acct H j prog (finish t r) v.
  Proof using Type.
    intros (past & A1 & A2 & A3) Hc Hp Hr. exists (past ++ [op]). cbn [q_prog q_log finish]. rewrite Hp in *. cbn [tail]. split; [rewrite <- app_assoc; exact A1|]. split; [rewrite !app_length, A2; reflexivity|].
    unfold emit in *. cbn [q_prog q_pc finish counted]. rewrite Hp, Hc in *. rewrite zip_snoc by exact A2. rewrite A3. cbn [tail]. destruct op as [k x|k].
    - rewrite Hr. destruct v, rest as [|[]]; rewrite ?app_nil_r; reflexivity.
    - destruct Hr as (y & -> & ->). destruct rest as [|[]]; rewrite ?app_nil_r; reflexivity.
  Qed.
  Lemma acct_count H j prog t v op rest x : acct H j prog t v -> counted (q_pc t) = false -> q_prog t = op :: rest ->
    forall pc v', counted pc = true -> (match op with QPush _ z => x = (op, Pushed z) | QPop _ => exists y, v' = Some y /\ x = (op, Popped y) end) -> acct (H ++ [(j, x)]) j prog (goto t pc) v'.
  Proof using Type.
    intros (past & A1 & A2 & A3) Hc Hp pc v' Hc' Hx. exists past. cbn [q_prog q_log goto]. split; [exact A1|]. split; [exact A2|]. rewrite calls_by_app, calls_by_one, decide_True by reflexivity. unfold emit in *. cbn [q_prog q_pc goto].
    rewrite Hp, Hc, Hc' in *. rewrite A3. destruct op as [k z|k]; [subst x|destruct Hx as (y & -> & ->)]; [destruct v|destruct v]; rewrite ?app_nil_r; reflexivity.
  Qed.

  Ltac keep V := first [exact (p_cnt _ _ _ _ _ _ V)|exact (p_n _ _ _ _ _ _ V)|exact (p_end _ _ _ _ _ _ V)|exact (p_begin _ _ _ _ _ _ V)|exact (p_posp _ _ _ _ _ _ V)|exact (p_pend _ _ _ _ _ _ V)|exact (p_posc _ _ _ _ _ _ V)
    |exact (p_pos _ _ _ _ _ _ V)|exact (p_posR _ _ _ _ _ _ V)|exact (p_occ _ _ _ _ _ _ V)|exact (p_data _ _ _ _ _ _ V)|exact (p_set _ _ _ _ _ _ V)|exact (p_read _ _ _ _ _ _ V)|exact (p_got _ _ _ _ _ _ V)
    |exact (p_gatep _ _ _ _ _ _ V)|exact (p_gatec _ _ _ _ _ _ V)|exact (p_accp _ _ _ _ _ _ V)|exact (p_accc _ _ _ _ _ _ V)|exact (p_dom _ _ _ _ _ _ V)|exact (p_fifo _ _ _ _ _ _ V)].
  Ltac keepc V Epc := first [(let X := fresh in pose proof (p_cnt _ _ _ _ _ _ V) as X; rewrite Epc in X; exact X)|(let X := fresh in pose proof (p_n _ _ _ _ _ _ V) as X; rewrite Epc in X; exact X)|(let X := fresh in pose proof (p_end _ _ _ _ _ _ V) as X; rewrite Epc in X; exact X)|(let X := fresh in pose proof (p_begin _ _ _ _ _ _ V) as X; rewrite Epc in X; exact X)|(let X := fresh in pose proof (p_posp _ _ _ _ _ _ V) as X; rewrite Epc in X; exact X)|(let X := fresh in pose proof (p_pend _ _ _ _ _ _ V) as X; rewrite Epc in X; exact X)|(let X := fresh in pose proof (p_posc _ _ _ _ _ _ V) as X; rewrite Epc in X; exact X)|(let X := fresh in pose proof (p_pos _ _ _ _ _ _ V) as X; rewrite Epc in X; exact X)|(let X := fresh in pose proof (p_posR _ _ _ _ _ _ V) as X; rewrite Epc in X; exact X)|(let X := fresh in pose proof (p_occ _ _ _ _ _ _ V) as X; rewrite Epc in X; exact X)|(let X := fresh in pose proof (p_data _ _ _ _ _ _ V) as X; rewrite Epc in X; exact X)|(let X := fresh in pose proof (p_set _ _ _ _ _ _ V) as X; rewrite Epc in X; exact X)|(let X := fresh in pose proof (p_read _ _ _ _ _ _ V) as X; rewrite Epc in X; exact X)|(let X := fresh in pose proof (p_got _ _ _ _ _ _ V) as X; rewrite Epc in X; exact X)|(let X := fresh in pose proof (p_gatep _ _ _ _ _ _ V) as X; rewrite Epc in X; exact X)|(let X := fresh in pose proof (p_gatec _ _ _ _ _ _ V) as X; rewrite Epc in X; exact X)].
  Lemma move_p s s' tp tc W R H pc' : pinv s tp tc W R H -> q_c s' = q_c s -> q_occ s' = q_occ s -> q_data s' = q_data s ->
    lp pc' = lp (q_pc tp) -> c2 pc' = c2 (q_pc tp) -> counted pc' = counted (q_pc tp) -> claimed_at pc' = claimed_at (q_pc tp) -> pc' <> QCtl 1 -> pc' <> QCtl 2 -> (forall p, pc' <> QSet p) ->
    pinv s' (goto tp pc') tc W R H.
  Proof using Type.
    intros V E1 E2 E3 L1 L2 L3 L4 N1 N2 N3. split; rewrite ?E1, ?E2, ?E3; cbn [q_pc goto]; rewrite ?L1, ?L2, ?L3, ?L4; try (keep V); try (intros; congruence).
    apply acct_goto; [exact (p_accp _ _ _ _ _ _ V)|exact L3].
  Qed.
  Lemma move_c s s' tp tc W R H pc' : pinv s tp tc W R H -> q_c s' = q_c s -> q_occ s' = q_occ s -> q_data s' = q_data s ->
    lc pc' = lc (q_pc tc) -> c2 pc' = c2 (q_pc tc) -> counted pc' = counted (q_pc tc) -> claimed_at pc' = claimed_at (q_pc tc) -> pc' <> QCtl 1 -> (forall p, pc' <> QRead p) -> (forall p y, pc' <> QDestroy p y) -> (forall p y, pc' <> QUnlock p (Some (Popped y))) ->
    pinv s' tp (goto tc pc') W R H.
  Proof using Type.
    intros V E1 E2 E3 L1 L2 L3 L4 N1 N2 N3 N4. split; rewrite ?E1, ?E2, ?E3; cbn [q_pc goto]; rewrite ?L1, ?L2, ?L3, ?L4; try (keep V); try (intros; congruence).
    - intros p y [Hp|Hp]; [destruct (N3 p y Hp)|destruct (N4 p y Hp)].
    - apply acct_goto; [exact (p_accc _ _ _ _ _ _ V)|exact L3].
  Qed.
  Lemma prod_head t H v op rest : acct H 0 prod t v -> q_prog t = op :: rest -> exists x, op = QPush KPushBack x.
  Proof using Hprod. clear -Hprod. intros (past & A1 & _) Hp. apply Hprod. rewrite A1, Hp. apply elem_of_app. right. left. Qed.
  Lemma cons_head t H v op rest : acct H 1 cons t v -> q_prog t = op :: rest -> op = QPop KPopFront.
  Proof using Hcons. clear -Hcons. intros (past & A1 & _) Hp. apply Hcons. rewrite A1, Hp. apply elem_of_app. right. left. Qed.
  Lemma inc_sl k : inc_mod (Z.of_nat cap) (Z.of_nat (sl k)) = Z.of_nat (sl (k + 1)).
  Proof using Hb Hcap. clear -Hb Hcap. unfold sl. rewrite !Nat2Z.inj_mod. rewrite inc_mod_mod by lia. f_equal. lia. Qed.

  Lemma pstep_p s tp tc W R H s' tp' : pfacts s tp tc -> pinv s tp tc W R H -> step 0 s tp = Some (s', tp') -> exists W' H2, pinv s' tp' tc W' R (H ++ H2).
  Proof using All.
    intros F V E. destruct (g_len _ _ _ F) as (L1 & L2 & L3). destruct (p_cnt _ _ _ _ _ _ V) as (Q1 & Q2 & Q3 & Q4). destruct (p_n _ _ _ _ _ _ V) as (Q5 & Q6 & Q7).
    destruct (g_tokp _ _ _ F) as [_ Htk]. pose proof (g_locp _ _ _ F) as Hloc. unfold local_ok in Hloc.
    unfold qstep in E. destruct (q_prog tp) as [|op rest] eqn:Epr; [discriminate|]. destruct (prod_head _ _ _ _ _ (p_accp _ _ _ _ _ _ V) Epr) as [x ->].
    assert (Epu : pushing tp = true) by (unfold pushing; rewrite Epr; reflexivity).
    destruct (q_pc tp) as [|n|p|p|p|p|p|p|p y|p r] eqn:Epc; rewrite ?Epc in *.
    - injection E as <- <-. exists W, []. rewrite app_nil_r. apply (move_p s); rewrite ?Epc; auto; discriminate.
    - destruct Htk as [Hn2 _]. destruct n as [|[|n]]; cbn [lp] in *.
      + cbn [kind_of dctl is_push] in E. destruct (clamp_size (Z.of_nat cap) (c_n (q_c s)) =? Z.of_nat cap) eqn:Ecl; injection E as <- <-.
        * exists W, [(0%nat, (QPush KPushBack x, Refused))]. apply Z.eqb_eq in Ecl.
          assert (Hfull : (length W = R + cap)%nat). { unfold clamp_size in Ecl. destruct (Z.ltb_spec (c_n (q_c s)) 0); [lia|]. destruct (Z.ltb_spec (Z.of_nat cap) (c_n (q_c s))); lia. }
          split; cbn [q_pc finish lp c2 counted claimed_at]; try (keep V); try (keepc V Epc); try discriminate; try (intros ? ?; discriminate); auto.
          -- apply (acct_reject _ _ _ _ _ _ rest); [exact (p_accp _ _ _ _ _ _ V)|rewrite Epc; reflexivity|exact Epr].
          -- apply acct_other; [exact (p_accc _ _ _ _ _ _ V)|discriminate].
          -- intros z Hz. apply elem_of_app in Hz as [Hz|Hz]; [exact (p_dom _ _ _ _ _ _ V z Hz)|]. apply elem_of_list_singleton in Hz as ->. cbn. lia.
          -- eapply bounded_snoc; [exact (p_fifo _ _ _ _ _ _ V)|]. cbn. rewrite drop_length. split; [lia|reflexivity].
        * exists W, []. rewrite app_nil_r. apply Z.eqb_neq in Ecl. assert (Hgate : (length W < R + cap)%nat). { unfold clamp_size in Ecl. destruct (Z.ltb_spec (c_n (q_c s)) 0); [lia|]. destruct (Z.ltb_spec (Z.of_nat cap) (c_n (q_c s))); lia. }
          split; cbn [q_pc goto with_c q_c q_occ q_data lp c2 counted claimed_at]; try (keep V); try (keepc V Epc); try discriminate; try (intros ? ?; discriminate); auto.
          -- apply acct_goto; [exact (p_accp _ _ _ _ _ _ V)|rewrite Epc; reflexivity].
      + cbn [kind_of dctl is_push] in E. pose proof (p_gatep _ _ _ _ _ _ V Epc) as Hgate. rewrite (proj2 (Z.ltb_lt (c_n (q_c s)) _)) in E by lia. injection E as <- <-.
        exists (W ++ [x]), [(0%nat, (QPush KPushBack x, Pushed x))].
        assert (HR1 : counted (q_pc tc) = true -> (W ++ [x]) !! (R - 1)%nat = W !! (R - 1)%nat).
        { intros Hct. destruct (p_posR _ _ _ _ _ _ V) as [[_ HR]|HR]; [|congruence]. apply lookup_app_l. lia. }
        split; cbn [q_pc goto with_c q_c q_occ q_data c_n c_end c_begin lp c2 counted claimed_at]; try (keep V); try (keepc V Epc); try discriminate; try (intros ? ?; discriminate); auto.
        * rewrite app_length. cbn [length]. lia.
        * rewrite app_length. cbn [length]. lia.
        * rewrite app_length. cbn [length]. pose proof (p_end _ _ _ _ _ _ V) as X. rewrite Epc in X. cbn [c2] in X. rewrite X. do 2 f_equal. lia.
        * intros _. exists x. split; [rewrite last_snoc; reflexivity|]. cbn. eauto.
        * left. rewrite app_length. cbn. split; [reflexivity|lia].
        * intros p Hp. rewrite app_length. cbn [length]. pose proof (p_occ _ _ _ _ _ _ V p Hp) as X. rewrite Epc in X. cbn [lp] in X. rewrite X. split; intros (j & Hj & Hs); exists j; (split; [lia|exact Hs]).
        * intros j Hj. rewrite app_length in Hj. cbn [length] in Hj. pose proof (p_data _ _ _ _ _ _ V j) as X. rewrite Epc in X. cbn [lp] in X. rewrite X by lia. symmetry. apply lookup_app_l. lia.
        * intros p Hp. rewrite (p_read _ _ _ _ _ _ V p Hp). symmetry. apply HR1. rewrite Hp. reflexivity.
        * intros p y Hp. rewrite HR1; [exact (p_got _ _ _ _ _ _ V p y Hp)|]. destruct Hp as [Hp|Hp]; rewrite Hp; reflexivity.
        * intros Hc. rewrite app_length. pose proof (p_gatec _ _ _ _ _ _ V Hc). lia.
        * apply (acct_count _ _ _ _ None (QPush KPushBack x) rest); [exact (p_accp _ _ _ _ _ _ V)|rewrite Epc; reflexivity|exact Epr|reflexivity|reflexivity].
        * apply acct_other; [|discriminate]. apply (acct_val _ _ _ _ (W !! (R - 1)%nat)); [exact (p_accc _ _ _ _ _ _ V)|exact HR1].
        * intros z Hz. apply elem_of_app in Hz as [Hz|Hz]; [exact (p_dom _ _ _ _ _ _ V z Hz)|]. apply elem_of_list_singleton in Hz as ->. cbn. lia.
        * eapply bounded_snoc; [exact (p_fifo _ _ _ _ _ _ V)|]. cbn. rewrite drop_length, drop_app_le by lia. split; [reflexivity|]. split; [reflexivity|lia].
      + assert (n = 0)%nat as -> by lia. cbn [kind_of dctl] in E. injection E as <- <-. exists W, []. rewrite app_nil_r. pose proof (p_end _ _ _ _ _ _ V) as X. rewrite Epc in X. cbn [c2] in X.
        rewrite X, Nat2Z.id, inc_sl. assert (HW : (0 < length W)%nat) by (destruct (p_pos _ _ _ _ _ _ V) as [[_ Y]|Y]; [exact Y|rewrite Epc in Y; discriminate]).
        split; cbn [q_pc goto with_c q_c q_occ q_data c_n c_end c_begin lp c2 counted claimed_at]; try (keep V); try (keepc V Epc); try discriminate; try (intros ? ?; discriminate); auto.
        * do 2 f_equal. lia.
        * intros p [= <-]. split; [reflexivity|]. exact (p_pend _ _ _ _ _ _ V Epc).
        * apply acct_goto; [exact (p_accp _ _ _ _ _ _ V)|rewrite Epc; reflexivity].
    - destruct (q_locks s !! p) as [[]|]; [| |discriminate]; injection E as <- <-; exists W, []; rewrite app_nil_r; [exact V|]. apply (move_p s); rewrite ?Epc; auto; discriminate.
    - destruct (q_occ s !! p) as [[]|]; [| |discriminate]; injection E as <- <-; exists W, []; rewrite app_nil_r; apply (move_p s); rewrite ?Epc; auto; discriminate.
    - (* the value is stored *)
      injection E as <- <-. exists W, []. rewrite app_nil_r. destruct Htk as [Hp _]. destruct (p_posp _ _ _ _ _ _ V p ltac:(rewrite Epc; reflexivity)) as (Hps & x' & Hlast & k' & rest' & Ex). rewrite Epr in Ex. injection Ex as <- <- <-.
      assert (Hfree : forall j, (R - lc (q_pc tc) <= j < length W - lp (q_pc tp))%nat -> sl j <> p).
      { intros j Hj Hs. pose proof (proj2 (p_occ _ _ _ _ _ _ V p Hp) (ex_intro _ j (conj Hj Hs))) as X. congruence. }
      assert (Hother : forall q, (q < cap)%nat -> incs q tc = 1 -> q <> p).
      { intros q Hq Hi ->. pose proof (g_excl _ _ _ F p Hp) as X. unfold incs at 1 in X. rewrite Epc, at_same in X. lia. }
      destruct (g_tokc _ _ _ F) as [_ Htkc].
      split; cbn [q_pc goto with_data q_c q_occ q_data c_n c_end c_begin lp c2 counted claimed_at]; try (keep V); try (keepc V Epc); try discriminate; try (intros ? ?; discriminate); auto.
      + intros j Hj. rewrite lkd_insert by lia. rewrite Epc in Hfree. rewrite decide_False by (apply Hfree; exact Hj). pose proof (p_data _ _ _ _ _ _ V j) as X. rewrite Epc in X. exact (X Hj).
      + intros q [= <-]. rewrite lkd_insert by lia. rewrite decide_True by reflexivity. symmetry. exact Hlast.
      + intros q Hq. rewrite Hq in Htkc. destruct Htkc as [Hqc _]. rewrite lkd_insert by lia. rewrite decide_False; [exact (p_read _ _ _ _ _ _ V q Hq)|]. apply Hother; [exact Hqc|]. unfold incs. rewrite Hq. apply at_same.
      + apply acct_goto; [exact (p_accp _ _ _ _ _ _ V)|rewrite Epc; reflexivity].
    - (* the slot is marked as occupied *)
      injection E as <- <-. exists W, []. rewrite app_nil_r. destruct Htk as [Hp _]. destruct (p_posp _ _ _ _ _ _ V p ltac:(rewrite Epc; reflexivity)) as (Hps & x' & Hlast & k' & rest' & Ex). rewrite Epr in Ex. injection Ex as <- <- <-.
      assert (HW : (0 < length W)%nat) by (destruct (p_pos _ _ _ _ _ _ V) as [[_ Y]|Y]; [exact Y|rewrite Epc in Y; discriminate]).
      pose proof (p_occ _ _ _ _ _ _ V) as PO. pose proof (p_data _ _ _ _ _ _ V) as PD. rewrite Epc in PO, PD. cbn [lp] in *.
      assert (Hlt : (length W - 1 < R - lc (q_pc tc) + cap)%nat).
      { destruct (decide (length W - 1 < R - lc (q_pc tc) + cap)%nat) as [|Hge]; [assumption|]. exfalso. assert (Eq : (length W - 1 = R - lc (q_pc tc) + cap)%nat) by lia.
        pose proof (proj2 (PO p Hp)) as X. rewrite X in Hloc; [discriminate|]. exists (R - lc (q_pc tc))%nat. split; [lia|]. rewrite Hps, Eq, sl_wrap. reflexivity. }
      split; cbn [q_pc goto with_occ q_c q_occ q_data c_n c_end c_begin lp c2 counted claimed_at]; try (keep V); try (keepc V Epc); try discriminate; try (intros ? ?; discriminate); auto.
      + lia.
      + intros q Hq. rewrite lk_insert by lia. destruct (decide (q = p)) as [->|Hne].
        * split; [intros _|reflexivity]. exists (length W - 1)%nat. split; [lia|congruence].
        * rewrite (PO q Hq). split; intros (j & Hj & Hs); exists j; (split; [|exact Hs]); [lia|]. destruct (decide (j = length W - 1)%nat) as [->|]; [congruence|lia].
      + intros j Hj. destruct (decide (j = length W - 1)%nat) as [->|Hne]; [|apply PD; lia]. rewrite <- Hps. rewrite (p_set _ _ _ _ _ _ V p Epc). rewrite last_lookup. f_equal. lia.
      + apply acct_goto; [exact (p_accp _ _ _ _ _ _ V)|rewrite Epc; reflexivity].
    - destruct Htk as (_ & _ & X). congruence.
    - destruct Htk as (_ & _ & X). congruence.
    - destruct Htk as (_ & _ & X). congruence.
    - destruct r as [r|]; injection E as <- <-; exists W, []; rewrite app_nil_r.
      + destruct Htk as (_ & _ & Hr). destruct r as [z|z| |]; try contradiction; [|congruence]. destruct Hr as (k' & rest' & [= <- <- <-]).
        split; cbn [q_pc finish with_lock q_c q_occ q_data c_n c_end c_begin lp c2 counted claimed_at]; try (keep V); try (keepc V Epc); try discriminate; try (intros ? ?; discriminate); auto.
        * eapply (acct_done _ _ _ _ None); [exact (p_accp _ _ _ _ _ _ V)|rewrite Epc; reflexivity|exact Epr|reflexivity].
      + apply (move_p s); rewrite ?Epc; auto; discriminate.
  Qed.

  Lemma pstep_c s tp tc W R H s' tc' : pfacts s tp tc -> pinv s tp tc W R H -> step 1 s tc = Some (s', tc') -> exists R' H2, pinv s' tp tc' W R' (H ++ H2).
  Proof using All.
    intros F V E. destruct (g_len _ _ _ F) as (L1 & L2 & L3). destruct (p_cnt _ _ _ _ _ _ V) as (Q1 & Q2 & Q3 & Q4). destruct (p_n _ _ _ _ _ _ V) as (Q5 & Q6 & Q7).
    destruct (g_tokc _ _ _ F) as [_ Htk]. pose proof (g_locc _ _ _ F) as Hloc. unfold local_ok in Hloc.
    unfold qstep in E. destruct (q_prog tc) as [|op rest] eqn:Epr; [discriminate|]. pose proof (cons_head _ _ _ _ _ (p_accc _ _ _ _ _ _ V) Epr) as ->.
    assert (Epu : pushing tc = false) by (unfold pushing; rewrite Epr; reflexivity).
    destruct (q_pc tc) as [|n|p|p|p|p|p|p|p y|p r] eqn:Epc; rewrite ?Epc in *.
    - injection E as <- <-. exists R, []. rewrite app_nil_r. apply (move_c s); rewrite ?Epc; auto; discriminate.
    - destruct Htk as [Hn2 _]. destruct n as [|[|n]]; cbn [lc] in *.
      + cbn [kind_of dctl is_push] in E. destruct (clamp_size (Z.of_nat cap) (c_n (q_c s)) =? 0) eqn:Ecl; injection E as <- <-.
        * exists R, [(1%nat, (QPop KPopFront, Refused))]. apply Z.eqb_eq in Ecl.
          assert (Hemp : (length W = R)%nat). { unfold clamp_size in Ecl. destruct (Z.ltb_spec (c_n (q_c s)) 0); [lia|]. destruct (Z.ltb_spec (Z.of_nat cap) (c_n (q_c s))); lia. }
          split; cbn [q_pc finish lc c2 counted claimed_at]; try (keep V); try (keepc V Epc); try discriminate; try (intros ? ?; discriminate); auto.
          -- intros ? ? [?|?]; discriminate.
          -- apply acct_other; [exact (p_accp _ _ _ _ _ _ V)|discriminate].
          -- apply (acct_reject _ _ _ _ _ _ rest); [exact (p_accc _ _ _ _ _ _ V)|rewrite Epc; reflexivity|exact Epr].
          -- intros z Hz. apply elem_of_app in Hz as [Hz|Hz]; [exact (p_dom _ _ _ _ _ _ V z Hz)|]. apply elem_of_list_singleton in Hz as ->. cbn. lia.
          -- eapply bounded_snoc; [exact (p_fifo _ _ _ _ _ _ V)|]. cbn. rewrite drop_ge by lia. auto.
        * exists R, []. rewrite app_nil_r. apply Z.eqb_neq in Ecl. assert (Hgate : (R < length W)%nat). { unfold clamp_size in Ecl. destruct (Z.ltb_spec (c_n (q_c s)) 0); [lia|]. destruct (Z.ltb_spec (Z.of_nat cap) (c_n (q_c s))); lia. }
          split; cbn [q_pc goto with_c q_c q_occ q_data lc c2 counted claimed_at]; try (keep V); try (keepc V Epc); try discriminate; try (intros ? ?; discriminate); auto.
          -- intros ? ? [?|?]; discriminate.
          -- apply acct_goto; [exact (p_accc _ _ _ _ _ _ V)|rewrite Epc; reflexivity].
      + cbn [kind_of dctl is_push] in E. pose proof (p_gatec _ _ _ _ _ _ V Epc) as Hgate. rewrite (proj2 (Z.ltb_lt 0 (c_n (q_c s)))) in E by lia. injection E as <- <-.
        destruct (lookup_lt_is_Some_2 W R Hgate) as [y Hy]. exists (R + 1)%nat, [(1%nat, (QPop KPopFront, Popped y))]. assert (ER : (R + 1 - 1 = R)%nat) by lia.
        split; cbn [q_pc goto with_c q_c q_occ q_data c_n c_end c_begin lc c2 counted claimed_at]; rewrite ?ER; try (keep V); try (keepc V Epc); try discriminate; try (intros ? ?; discriminate); auto.
        * lia.
        * lia.
        * pose proof (p_begin _ _ _ _ _ _ V) as X. rewrite Epc in X. cbn [c2] in X. rewrite X. do 2 f_equal. lia.
        * left. split; [reflexivity|lia].
        * pose proof (p_occ _ _ _ _ _ _ V) as X. rewrite Epc in X. cbn [lc] in X. rewrite Nat.sub_0_r in X. exact X.
        * pose proof (p_data _ _ _ _ _ _ V) as X. rewrite Epc in X. cbn [lc] in X. rewrite Nat.sub_0_r in X. exact X.
        * intros ? ? [?|?]; discriminate.
        * intros Hc. pose proof (p_gatep _ _ _ _ _ _ V Hc). lia.
        * apply acct_other; [exact (p_accp _ _ _ _ _ _ V)|discriminate].
        * apply (acct_count _ _ _ _ (W !! (R - 1)%nat) (QPop KPopFront) rest); [exact (p_accc _ _ _ _ _ _ V)|rewrite Epc; reflexivity|exact Epr|reflexivity|]. exists y. auto.
        * intros z Hz. apply elem_of_app in Hz as [Hz|Hz]; [exact (p_dom _ _ _ _ _ _ V z Hz)|]. apply elem_of_list_singleton in Hz as ->. cbn. lia.
        * eapply bounded_snoc; [exact (p_fifo _ _ _ _ _ _ V)|]. cbn. rewrite (drop_S _ _ _ Hy), Nat.add_1_r. reflexivity.
      + assert (n = 0)%nat as -> by lia. cbn [kind_of dctl] in E. injection E as <- <-. exists R, []. rewrite app_nil_r. pose proof (p_begin _ _ _ _ _ _ V) as X. rewrite Epc in X. cbn [c2] in X.
        rewrite X, Nat2Z.id, inc_sl. assert (HR : (0 < R)%nat) by (destruct (p_posR _ _ _ _ _ _ V) as [[_ Y]|Y]; [exact Y|rewrite Epc in Y; discriminate]).
        split; cbn [q_pc goto with_c q_c q_occ q_data c_n c_end c_begin lc c2 counted claimed_at]; try (keep V); try (keepc V Epc); try discriminate; try (intros ? ?; discriminate); auto.
        * do 2 f_equal. lia.
        * intros p [= <-]. reflexivity.
        * intros ? ? [?|?]; discriminate.
        * apply acct_goto; [exact (p_accc _ _ _ _ _ _ V)|rewrite Epc; reflexivity].
    - destruct (q_locks s !! p) as [[]|]; [| |discriminate]; injection E as <- <-; exists R, []; rewrite app_nil_r; [exact V|]. apply (move_c s); rewrite ?Epc; auto; discriminate.
    - destruct (q_occ s !! p) as [[]|]; [| |discriminate]; injection E as <- <-; exists R, []; rewrite app_nil_r; apply (move_c s); rewrite ?Epc; auto; discriminate.
    - destruct Htk as (_ & X). congruence.
    - destruct Htk as (_ & X). congruence.
    - (* the slot is marked as free *)
      injection E as <- <-. exists R, []. rewrite app_nil_r. destruct Htk as [Hp _]. pose proof (p_posc _ _ _ _ _ _ V p ltac:(rewrite Epc; reflexivity)) as Hps.
      assert (HR : (0 < R)%nat) by (destruct (p_posR _ _ _ _ _ _ V) as [[_ Y]|Y]; [exact Y|rewrite Epc in Y; discriminate]).
      pose proof (p_occ _ _ _ _ _ _ V) as PO. pose proof (p_data _ _ _ _ _ _ V) as PD. rewrite Epc in PO, PD. cbn [lc] in *.
      assert (Hlt : (R - 1 < length W - lp (q_pc tp))%nat) by (destruct (proj1 (PO p Hp) Hloc) as (j & Hj & _); lia).
      split; cbn [q_pc goto with_occ q_c q_occ q_data c_n c_end c_begin lc c2 counted claimed_at]; try (keep V); try (keepc V Epc); try discriminate; try (intros ? ?; discriminate); auto.
      + lia.
      + intros q Hq. rewrite lk_insert by lia. destruct (decide (q = p)) as [->|Hne].
        * split; [discriminate|]. intros (j & Hj & Hs). exfalso. rewrite Hps in Hs. apply sl_inj in Hs; lia.
        * rewrite (PO q Hq). split; intros (j & Hj & Hs); exists j; (split; [|exact Hs]); [|lia]. destruct (decide (j = R - 1)%nat) as [->|]; [congruence|lia].
      + intros j Hj. apply PD. lia.
      + intros q [= <-]. rewrite Hps. apply PD. lia.
      + intros ? ? [?|?]; discriminate.
      + apply acct_goto; [exact (p_accc _ _ _ _ _ _ V)|rewrite Epc; reflexivity].
    - (* the value is copied *)
      destruct (q_data s !! p) as [[y|]|] eqn:Ed; try discriminate. injection E as <- <-. exists R, []. rewrite app_nil_r.
      assert (Hy : W !! (R - 1)%nat = Some y) by (rewrite <- (p_read _ _ _ _ _ _ V p Epc); unfold lkd; rewrite Ed; reflexivity).
      split; cbn [q_pc goto q_c q_occ q_data c_n c_end c_begin lc c2 counted claimed_at]; try (keep V); try (keepc V Epc); try discriminate; try (intros ? ?; discriminate); auto.
      + intros q z [[= <- <-]|?]; [exact Hy|discriminate].
      + apply acct_goto; [exact (p_accc _ _ _ _ _ _ V)|rewrite Epc; reflexivity].
    - (* the value is destroyed *)
      injection E as <- <-. exists R, []. rewrite app_nil_r. destruct Htk as [Hp _]. destruct Hloc as [Hocc _]. pose proof (p_got _ _ _ _ _ _ V p y (or_introl Epc)) as Hy.
      assert (Hother : forall q, (q < cap)%nat -> incs q tp = 1 -> q <> p).
      { intros q Hq Hi ->. pose proof (g_excl _ _ _ F p Hp) as X. unfold incs at 2 in X. rewrite Epc, at_same in X. lia. }
      destruct (g_tokp _ _ _ F) as [_ Htkp].
      split; cbn [q_pc goto with_data q_c q_occ q_data c_n c_end c_begin lc c2 counted claimed_at]; try (keep V); try (keepc V Epc); try discriminate; try (intros ? ?; discriminate); auto.
      + intros j Hj. rewrite lkd_insert by lia. rewrite decide_False.
        * pose proof (p_data _ _ _ _ _ _ V j) as X. rewrite Epc in X. exact (X Hj).
        * intros Hs. pose proof (p_occ _ _ _ _ _ _ V p Hp) as X. rewrite Epc in X. rewrite (proj2 X) in Hocc; [discriminate|]. exists j. auto.
      + intros q Hq. rewrite Hq in Htkp. destruct Htkp as [Hqc _]. rewrite lkd_insert by lia. rewrite decide_False; [exact (p_set _ _ _ _ _ _ V q Hq)|]. apply Hother; [exact Hqc|]. unfold incs. rewrite Hq. apply at_same.
      + intros q z [?|[= <- <-]]; [discriminate|exact Hy].
      + apply acct_goto; [exact (p_accc _ _ _ _ _ _ V)|rewrite Epc; reflexivity].
    - destruct r as [r|]; injection E as <- <-; exists R, []; rewrite app_nil_r.
      + destruct Htk as (_ & _ & Hr). destruct r as [z|z| |]; try contradiction; [destruct Hr as (? & ? & ?); discriminate|].
        split; cbn [q_pc finish with_lock q_c q_occ q_data c_n c_end c_begin lc c2 counted claimed_at]; try (keep V); try (keepc V Epc); try discriminate; try (intros ? ?; discriminate); auto.
        * intros ? ? [?|?]; discriminate.
        * eapply (acct_done _ _ _ _ _ (QPop KPopFront)); [exact (p_accc _ _ _ _ _ _ V)|rewrite Epc; reflexivity|exact Epr|]. exists z. split; [|reflexivity]. exact (p_got _ _ _ _ _ _ V p z (or_intror Epc)).
      + apply (move_c s); rewrite ?Epc; auto; discriminate.
  Qed.

  Lemma pair_accounts s tp tc W R H : pinv s tp tc W R H -> accounts progs [tp; tc] H.
  Proof using Type.
    intros V. split; [exact (p_dom _ _ _ _ _ _ V)|].
    assert (A : forall j prog t v, acct H j prog t v -> calls_by j H = zip prog (q_log t) \/ exists op rest r, q_pc t <> QIdle /\ q_prog t = op :: rest /\ calls_by j H = zip prog (q_log t) ++ [(op, r)]).
    { intros j prog t v (past & -> & A2 & A3). rewrite zip_prefix by exact A2. rewrite A3. unfold emit. destruct (q_prog t) as [|[k x|k] rest] eqn:Ep; [left; apply app_nil_r| |].
      - destruct (counted (q_pc t)) eqn:Ec; [|left; destruct v; apply app_nil_r]. right. exists (QPush k x), rest, (Pushed x). split; [intros X; rewrite X in Ec; discriminate|]. auto.
      - destruct v as [y|]; [|left; apply app_nil_r]. destruct (counted (q_pc t)) eqn:Ec; [|left; apply app_nil_r]. right. exists (QPop k), rest, (Popped y). split; [intros X; rewrite X in Ec; discriminate|]. auto. }
    intros i t prog Ht Hp. destruct i as [|[|i]]; cbn in Ht, Hp; try discriminate; injection Ht as <-; injection Hp as <-; eapply A; [exact (p_accp _ _ _ _ _ _ V)|exact (p_accc _ _ _ _ _ _ V)].
  Qed.
  Lemma ppasses_reach past c : passes step start past c -> reach step start c.
  Proof using Type. induction 1 as [|past c c' _ IH Hs]; [apply rtc_refl|]. eapply rtc_r; eassumption. Qed.
  Lemma pair_run past s ls : passes step start past (s, ls) -> exists tp tc W R H, ls = [tp; tc] /\ pinv s tp tc W R H /\ in_order progs past ls H.
  Proof using All.
    intros R. remember (s, ls) as c eqn:Ec. revert s ls Ec. induction R as [|past c c' R IH Hs]; intros s ls Ec.
    - injection Ec as <- <-. eexists _, _, l, 0%nat, []. split; [reflexivity|]. split; [exact pinv_start|]. split; [exact (pair_accounts _ _ _ _ _ _ pinv_start)|]. intros c1 Hc. inversion Hc.
    - destruct c as [s0 ls0]. subst c'. destruct (IH s0 ls0 eq_refl) as (tp & tc & W & N & H & -> & V & A1 & A2).
      destruct (pair_facts s0 _ (ppasses_reach _ _ R)) as (tp2 & tc2 & [= <- <-] & F).
      assert (X : exists tp' tc' W' N' H2, ls = [tp'; tc'] /\ pinv s tp' tc' W' N' (H ++ H2)).
      { inversion Hs as [s1 ls1 i t s2 t2 Hi Hst]; subst. destruct i as [|[|i]]; cbn in Hi; try discriminate; injection Hi as <-.
        - destruct (pstep_p _ _ _ _ _ _ _ _ F V Hst) as (W' & H2 & V'). exists t2, tc, W', N, H2. auto.
        - destruct (pstep_c _ _ _ _ _ _ _ _ F V Hst) as (N' & H2 & V'). exists tp, t2, W, N', H2. auto. }
      destruct X as (tp' & tc' & W' & N' & H2 & -> & V'). exists tp', tc', W', N', (H ++ H2). split; [reflexivity|]. split; [exact V'|]. split; [exact (pair_accounts _ _ _ _ _ _ V')|].
      intros c1 Hc. apply elem_of_cons in Hc as [-> |Hc]; [exists H, H2; auto|]. destruct (A2 c1 Hc) as (ha & hb & -> & A3). exists ha, (hb ++ H2). rewrite app_assoc. auto.
  Qed.

  Lemma sl_dist R p : (p < cap)%nat -> sl (R + ring_dist cap (sl R) p) = p.
  Proof using Hb.
    clear -Hb. intros Hp. unfold sl, ring_dist. pose proof (Nat.mod_upper_bound (b + R) cap ltac:(lia)) as H1. pose proof (Nat.div_mod (b + R) cap ltac:(lia)) as H2.
    set (m := ((b + R) mod cap)%nat) in *. set (q := ((b + R) / cap)%nat) in *. destruct (Nat.ltb_spec p m).
    - replace (b + (R + (p + cap - m)))%nat with (p + (q + 1) * cap)%nat by nia. rewrite Nat.mod_add, Nat.mod_small by lia. reflexivity.
    - replace (b + (R + (p - m)))%nat with (p + q * cap)%nat by nia. rewrite Nat.mod_add, Nat.mod_small by lia. reflexivity.
  Qed.
  Lemma dist_lt R p : (p < cap)%nat -> (ring_dist cap (sl R) p < cap)%nat.
  Proof using Hb. clear -Hb. intros Hp. pose proof (sl_lt R) as H1. specialize (H1). unfold ring_dist. destruct (Nat.ltb_spec p (sl R)); lia. Qed.
  Lemma pair_rest s tp tc W R H : reach step start (s, [tp; tc]) -> pinv s tp tc W R H -> q_pc tp = QIdle -> q_pc tc = QIdle -> s = deq_conc_start cap (sl R) (drop R W).
  Proof using All.
    intros Re V Hp1 Hp2. destruct (dreach_inv cap b l Hb Hcap Hl progs pair_wf s _ Re) as (sg & -> & _ & I).
    assert (Hqu : quiescent [tp; tc]) by (intros t Ht; apply elem_of_cons in Ht as [-> |Ht]; [exact Hp1|]; apply elem_of_list_singleton in Ht as ->; exact Hp2).
    destruct (at_rest cap (gm cap) (gok cap) _ _ _ I Hqu) as [Hrest _]. destruct (i_len _ _ _ _ _ _ I) as (L1 & L2 & L3).
    destruct (p_n _ _ _ _ _ _ V) as (Q5 & Q6 & Q7). pose proof (p_occ _ _ _ _ _ _ V) as PO. pose proof (p_data _ _ _ _ _ _ V) as PD. pose proof (p_end _ _ _ _ _ _ V) as PE. pose proof (p_begin _ _ _ _ _ _ V) as PB.
    rewrite Hp1, Hp2 in PO, PD. rewrite Hp1 in PE. rewrite Hp2 in PB. cbn [lp lc c2] in *. rewrite !Nat.sub_0_r in PE, PB. set (s := er_s g_c sg) in *.
    change (q_data sg) with (q_data s) in *. change (q_occ sg) with (q_occ s) in *. change (q_locks sg) with (q_locks s) in *.
    assert (Hoc : forall p, (p < cap)%nat -> lk (q_occ s) p = bool_decide (ring_dist cap (sl R) p < length W - R)%nat).
    { intros p Hp. apply Bool.eq_true_iff_eq. rewrite bool_decide_eq_true. rewrite (PO p Hp). split.
      - intros (j & Hj & Hs). pose proof (dist_lt R p Hp). assert (j = R + ring_dist cap (sl R) p)%nat; [|lia]. apply sl_inj; [rewrite (sl_dist R p Hp); exact Hs|lia|lia].
      - intros Hd. exists (R + ring_dist cap (sl R) p)%nat. split; [lia|]. apply sl_dist. exact Hp. }
    assert (Hdt : forall p, (p < cap)%nat -> lkd (q_data s) p = W !! (R + ring_dist cap (sl R) p)%nat).
    { intros p Hp. destruct (decide (ring_dist cap (sl R) p < length W - R)%nat) as [Hd|Hd].
      - rewrite <- (sl_dist R p Hp) at 1. apply PD. lia.
      - rewrite lookup_ge_None_2 by lia. destruct (Hrest p Hp) as (_ & _ & H3). pose proof (Hoc p Hp) as X. rewrite bool_decide_eq_false_2 in X by exact Hd. destruct (lkd (q_data s) p); [|reflexivity]. rewrite X in H3. discriminate. }
    assert (Hlk : forall p, (p < cap)%nat -> lk (q_locks s) p = false) by (intros p Hp; apply (Hrest p Hp)).
    clearbody s. clear -L1 L2 L3 Hoc Hdt Hlk Q5 Q6 PE PB Hb. destruct s as [c d o lk0]. cbn [q_c q_data q_occ q_locks] in *. unfold deq_conc_start. f_equal.
    - destruct c as [n0 b0 e0]. cbn [c_n c_begin c_end] in *. f_equal; [rewrite drop_length; lia|exact PB|]. rewrite PE, drop_length. f_equal. unfold sl. rewrite Nat.add_mod_idemp_l by lia. f_equal. lia.
    - apply list_eq. intros p. destruct (decide (p < cap)%nat) as [Hp|Hp]; [|rewrite !lookup_ge_None_2; [reflexivity|rewrite fmap_length, seq_length; lia|lia]].
      rewrite list_lookup_fmap, lookup_seq_lt by exact Hp. cbn [fmap option_fmap option_map]. rewrite Nat.add_0_l, lookup_drop, <- Hdt by exact Hp. apply lkd_Some. lia.
    - apply list_eq. intros p. destruct (decide (p < cap)%nat) as [Hp|Hp]; [|rewrite !lookup_ge_None_2; [reflexivity|rewrite fmap_length, seq_length; lia|lia]].
      rewrite list_lookup_fmap, lookup_seq_lt by exact Hp. cbn [fmap option_fmap option_map]. rewrite Nat.add_0_l, drop_length, <- Hoc by exact Hp. apply lk_Some. lia.
    - apply list_eq. intros p. destruct (decide (p < cap)%nat) as [Hp|Hp]; [|rewrite !lookup_ge_None_2; [reflexivity|rewrite replicate_length; lia|lia]].
      rewrite lookup_replicate_2 by exact Hp. rewrite lk_Some by lia. rewrite Hlk by exact Hp. reflexivity.
  Qed.
End pair.
