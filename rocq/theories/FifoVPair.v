(** One thread that pushes to a vector and one that pops from it: an exact bounded stack, whatever the number of calls. *)
From Verif Require Import Base Conc SlotModel SlotSpec SlotProofs VectorModel VectorProofs VectorConcProofs FifoSpec FifoProofs FifoPair.

Section vpair.
  Context {T : Type} (cap : nat) (l : list T) (Hl : (length l <= cap)%nat).
  Context (prod cons : list (qop T)).
  Context (Hprod : forall op, op ∈ prod -> exists x, op = QPush KPushBack x) (Hcons : forall op, op ∈ cons -> op = QPop KPopBack).
  Notation progs := [prod; cons].
  Notation step := (qstep (T:=T) (vctl cap)).
  Notation start := (vec_conc_start cap l, q_start progs).
  Implicit Types (s : qshared T Z) (t tp tc : qthread T) (M : list T) (v : option T) (H : list (nat * (qop T * qres T))).

  (** the slot the running push has claimed and not yet marked as occupied, and the one the running pop has claimed and not yet marked as free *)
  Definition wantp (pc : qpc T) : option nat := match pc with QTry p | QCheck p | QConstruct p | QSet p | QUnlock p None => Some p | _ => None end.
  Definition wantc (pc : qpc T) : option nat := match pc with QTry p | QCheck p | QReset p | QUnlock p None => Some p | _ => None end.

  (** [M]: the elements by the order of claims; [v]: the value of the running pop that has claimed *)
  Record yinv s tp tc M v H : Prop := {
    y_n : q_c s = Z.of_nat (length M) /\ (length M <= cap)%nat;
    y_ctlp : forall n, q_pc tp = QCtl n -> (n <= 1)%nat;
    y_ctlc : forall n, q_pc tc = QCtl n -> (n <= 1)%nat;
    y_push : forall p, wantp (q_pc tp) = Some p -> (p < cap)%nat /\ (length M <= p + 1)%nat /\ exists k x rest, q_prog tp = QPush k x :: rest /\ ((p < length M)%nat -> M !! p = Some x) /\ ((length M <= p)%nat -> wantc (q_pc tc) = Some p /\ v = Some x);
    y_pop : forall p, wantc (q_pc tc) = Some p -> (p < cap)%nat /\ (p <= length M)%nat /\ ((p < length M)%nat -> wantp (q_pc tp) = Some p);
    y_occ : forall q, (q < cap)%nat -> lk (q_occ s) q = true <-> (wantp (q_pc tp) = Some q /\ wantc (q_pc tc) = Some q /\ (q < length M)%nat \/ wantp (q_pc tp) <> Some q /\ (wantc (q_pc tc) = Some q \/ (q < length M)%nat));
    y_data : forall q, (q < cap)%nat -> wantc (q_pc tc) = Some q -> lk (q_occ s) q = true -> lkd (q_data s) q = v;
    y_elem : forall q, (q < length M)%nat -> wantp (q_pc tp) <> Some q -> lkd (q_data s) q = M !! q;
    y_set : forall p, q_pc tp = QSet p -> exists k x rest, q_prog tp = QPush k x :: rest /\ lkd (q_data s) p = Some x;
    y_read : forall p, q_pc tc = QRead p -> lkd (q_data s) p = v;
    y_got : forall p y, q_pc tc = QDestroy p y \/ q_pc tc = QUnlock p (Some (Popped y)) -> v = Some y;
    y_gatep : q_pc tp = QCtl 1 -> (length M < cap)%nat;
    y_gatec : q_pc tc = QCtl 1 -> (0 < length M)%nat;
    y_accp : acct H 0 prod tp None;
    y_accc : acct H 1 cons tc v;
    y_dom : forall x, x ∈ H -> (x.1 < 2)%nat;
    y_oobp : OutOfBounds ∉ q_log tp;
    y_oobc : OutOfBounds ∉ q_log tc;
    y_lifo : lifo cap 0 l H M
  }.
  Record yfacts s tp tc : Prop := {
    h_len : length (q_data s) = cap /\ length (q_occ s) = cap /\ length (q_locks s) = cap;
    h_tokp : tok cap tp; h_tokc : tok cap tc;
    h_locp : local_ok s tp; h_locc : local_ok s tc;
    h_excl : forall p, (p < cap)%nat -> incs p tp + incs p tc <= 1
  }.
  Lemma vpair_wf : forall p op, p ∈ progs -> op ∈ p -> vector_call op.
  Proof using Hprod Hcons.
    clear -Hprod Hcons. intros p op Hp Ho. apply elem_of_cons in Hp as [-> |Hp]; [destruct (Hprod op Ho) as [x ->]; exact Logic.I|]. apply elem_of_list_singleton in Hp as ->. rewrite (Hcons op Ho). exact Logic.I.
  Qed.
  Lemma vpair_facts s ls : reach step start (s, ls) -> exists tp tc, ls = [tp; tc] /\ yfacts s tp tc.
  Proof using Hl Hprod Hcons.
    intros R. pose proof (reach_inv cap l Hl progs vpair_wf s ls R) as I.
    assert (HL : length ls = 2%nat).
    { refine (invariant step (fun c => length c.2 = 2%nat) _ start (s, ls) eq_refl R). intros c c' Hc Hs. destruct Hs. cbn in *. rewrite insert_length. exact Hc. }
    destruct ls as [|tp [|tc [|]]]; try discriminate. exists tp, tc. split; [reflexivity|]. split.
    - apply I.
    - apply (i_tok _ _ _ _ _ _ I). left.
    - apply (i_tok _ _ _ _ _ _ I). right. left.
    - apply (i_loc _ _ _ _ _ _ I). left.
    - apply (i_loc _ _ _ _ _ _ I). right. left.
    - intros p Hp. exact (excl cap _ _ _ _ _ 0%nat 1%nat tp tc p I Hp ltac:(discriminate) eq_refl eq_refl).
  Qed.
  Lemma yinv_start : yinv (vec_conc_start cap l) {| q_prog := prod; q_pc := QIdle; q_log := [] |} {| q_prog := cons; q_pc := QIdle; q_log := [] |} l None [].
  Proof using Hl.
    clear -Hl. split; cbn [q_pc q_prog q_log wantp wantc]; try discriminate; try (intros ? ?; discriminate); auto.
    - intros q Hq. rewrite (proj2 (start_lookup cap l Hl q Hq)), bool_decide_eq_true. split; [intros X; right; split; [discriminate|auto]|]. intros [(? & _)|(_ & [?|?])]; [discriminate|discriminate|assumption].
    - intros q Hq _. apply (start_lookup cap l Hl). lia.
    - intros p y [?|?]; discriminate.
    - exists []. cbn. unfold emit. cbn. destruct prod as [|[]]; auto.
    - exists []. cbn. unfold emit. cbn. destruct cons as [|[]]; auto.
    - intros x Hx. inversion Hx.
    - intros Hx. inversion Hx.
    - intros Hx. inversion Hx.
    - reflexivity.
  Qed.

  Ltac keep V := first [exact (y_n _ _ _ _ _ _ V)|exact (y_ctlp _ _ _ _ _ _ V)|exact (y_ctlc _ _ _ _ _ _ V)|exact (y_push _ _ _ _ _ _ V)|exact (y_pop _ _ _ _ _ _ V)|exact (y_occ _ _ _ _ _ _ V)|exact (y_data _ _ _ _ _ _ V)|exact (y_elem _ _ _ _ _ _ V)
    |exact (y_set _ _ _ _ _ _ V)|exact (y_read _ _ _ _ _ _ V)|exact (y_got _ _ _ _ _ _ V)|exact (y_gatep _ _ _ _ _ _ V)|exact (y_gatec _ _ _ _ _ _ V)|exact (y_accp _ _ _ _ _ _ V)|exact (y_accc _ _ _ _ _ _ V)
    |exact (y_dom _ _ _ _ _ _ V)|exact (y_oobp _ _ _ _ _ _ V)|exact (y_oobc _ _ _ _ _ _ V)|exact (y_lifo _ _ _ _ _ _ V)].
  Ltac via V Epc P := let X := fresh in pose proof (P _ _ _ _ _ _ V) as X; rewrite Epc in X; exact X.
  Ltac keepc V Epc := first [via V Epc y_push|via V Epc y_pop|via V Epc y_occ|via V Epc y_data|via V Epc y_elem|via V Epc y_set|via V Epc y_read].
  Ltac rest V Epc := cbn [q_pc q_prog q_log goto finish with_c with_lock with_data with_occ q_c q_occ q_data wantp wantc]; try (keep V); try (keepc V Epc); try discriminate; try (intros ? ?; discriminate); auto.
  Lemma ymove_p s s' tp tc M v H pc' : yinv s tp tc M v H -> q_c s' = q_c s -> q_occ s' = q_occ s -> q_data s' = q_data s ->
    wantp pc' = wantp (q_pc tp) -> counted pc' = counted (q_pc tp) -> (forall n, pc' = QCtl n -> n = 0%nat) -> (forall p, pc' <> QSet p) -> yinv s' (goto tp pc') tc M v H.
  Proof using Hl.
    intros V E1 E2 E3 L1 L2 N1 N2. split; rewrite ?E1, ?E2, ?E3; cbn [q_pc goto]; rewrite ?L1; try (keep V); try (intros; congruence).
    - intros n Hn. rewrite (N1 n Hn). lia.
    - intros Hn. specialize (N1 _ Hn). discriminate.
    - apply acct_goto; [exact (y_accp _ _ _ _ _ _ V)|exact L2].
  Qed.
  Lemma ymove_c s s' tp tc M v H pc' : yinv s tp tc M v H -> q_c s' = q_c s -> q_occ s' = q_occ s -> q_data s' = q_data s ->
    wantc pc' = wantc (q_pc tc) -> counted pc' = counted (q_pc tc) -> (forall n, pc' = QCtl n -> n = 0%nat) -> (forall p, pc' <> QRead p) -> (forall p y, pc' <> QDestroy p y) -> (forall p y, pc' <> QUnlock p (Some (Popped y))) ->
    yinv s' tp (goto tc pc') M v H.
  Proof using Hl.
    intros V E1 E2 E3 L1 L2 N1 N2 N3 N4. split; rewrite ?E1, ?E2, ?E3; cbn [q_pc goto]; rewrite ?L1; try (keep V); try (intros; congruence).
    - intros n Hn. rewrite (N1 n Hn). lia.
    - intros p y [Hp|Hp]; [destruct (N3 p y Hp)|destruct (N4 p y Hp)].
    - intros Hn. specialize (N1 _ Hn). discriminate.
    - apply acct_goto; [exact (y_accc _ _ _ _ _ _ V)|exact L2].
  Qed.
  Lemma vprod_head t H v op rest : acct H 0 prod t v -> q_prog t = op :: rest -> exists x, op = QPush KPushBack x.
  Proof using Hprod. clear -Hprod. intros (past & A1 & _) Hp. apply Hprod. rewrite A1, Hp. apply elem_of_app. right. left. Qed.
  Lemma vcons_head t H v op rest : acct H 1 cons t v -> q_prog t = op :: rest -> op = QPop KPopBack.
  Proof using Hcons. clear -Hcons. intros (past & A1 & _) Hp. apply Hcons. rewrite A1, Hp. apply elem_of_app. right. left. Qed.
  Lemma dom_snoc H i (x : qop T * qres T) : (i < 2)%nat -> (forall z, z ∈ H -> (z.1 < 2)%nat) -> forall z, z ∈ H ++ [(i, x)] -> (z.1 < 2)%nat.
  Proof using Type. intros Hi HD z Hz. apply elem_of_app in Hz as [Hz|Hz]; [exact (HD z Hz)|]. apply elem_of_list_singleton in Hz as ->. exact Hi. Qed.
  Lemma oob_snoc (log : list (qres T)) r : OutOfBounds ∉ log -> r <> OutOfBounds -> OutOfBounds ∉ log ++ [r].
  Proof using Type. intros A B X. apply elem_of_app in X as [X|X]; [exact (A X)|]. apply elem_of_list_singleton in X. congruence. Qed.

  Lemma ystep_p s tp tc M v H s' tp' : yfacts s tp tc -> yinv s tp tc M v H -> step 0 s tp = Some (s', tp') -> exists M' H2, yinv s' tp' tc M' v (H ++ H2).
  Proof using All.
    intros F V E. destruct (h_len _ _ _ F) as (L1 & L2 & L3). destruct (y_n _ _ _ _ _ _ V) as (Q1 & Q2).
    destruct (h_tokp _ _ _ F) as [_ Htk]. pose proof (h_locp _ _ _ F) as Hloc. unfold local_ok in Hloc.
    unfold qstep in E. destruct (q_prog tp) as [|op rest] eqn:Epr; [discriminate|]. destruct (vprod_head _ _ _ _ _ (y_accp _ _ _ _ _ _ V) Epr) as [x ->].
    assert (Epu : pushing tp = true) by (unfold pushing; rewrite Epr; reflexivity).
    destruct (q_pc tp) as [|n|p|p|p|p|p|p|p y|p r] eqn:Epc; rewrite ?Epc in *.
    - injection E as <- <-. exists M, []. rewrite app_nil_r. apply (ymove_p s); rewrite ?Epc; auto; try discriminate. intros n [= <-]. reflexivity.
    - pose proof (y_ctlp _ _ _ _ _ _ V n Epc) as Hn. destruct n as [|[|]]; [| |lia]; cbn [kind_of vctl] in E.
      + destruct (clamp_size (Z.of_nat cap) (q_c s) =? Z.of_nat cap) eqn:Ecl; injection E as <- <-.
        * exists M, [(0%nat, (QPush KPushBack x, Refused))]. apply Z.eqb_eq in Ecl.
          assert (Hfull : length M = cap). { unfold clamp_size in Ecl. destruct (Z.ltb_spec (q_c s) 0); [lia|]. destruct (Z.ltb_spec (Z.of_nat cap) (q_c s)); lia. }
          split; rest V Epc.
          -- apply (acct_reject _ _ _ _ _ _ rest); [exact (y_accp _ _ _ _ _ _ V)|rewrite Epc; reflexivity|exact Epr].
          -- apply acct_other; [exact (y_accc _ _ _ _ _ _ V)|discriminate].
          -- apply dom_snoc; [lia|exact (y_dom _ _ _ _ _ _ V)].
          -- apply oob_snoc; [exact (y_oobp _ _ _ _ _ _ V)|discriminate].
          -- eapply lifo_snoc; [exact (y_lifo _ _ _ _ _ _ V)|]. cbn. split; [lia|reflexivity].
        * exists M, []. rewrite app_nil_r. apply Z.eqb_neq in Ecl. assert (Hgate : (length M < cap)%nat). { unfold clamp_size in Ecl. destruct (Z.ltb_spec (q_c s) 0); [lia|]. destruct (Z.ltb_spec (Z.of_nat cap) (q_c s)); lia. }
          split; rest V Epc.
          -- intros n [= <-]. lia.
          -- apply acct_goto; [exact (y_accp _ _ _ _ _ _ V)|rewrite Epc; reflexivity].
      + (* the slot is claimed *)
        pose proof (y_gatep _ _ _ _ _ _ V Epc) as Hgate. rewrite (proj2 (Z.leb_le 0 (q_c s))), (proj2 (Z.ltb_lt (q_c s) _)) in E by lia. cbn [andb] in E. injection E as <- <-. rewrite Q1, Nat2Z.id.
        exists (M ++ [x]), [(0%nat, (QPush KPushBack x, Pushed x))]. assert (EL : length (M ++ [x]) = S (length M)) by (rewrite app_length; cbn; lia).
        pose proof (y_pop _ _ _ _ _ _ V) as PP. pose proof (y_occ _ _ _ _ _ _ V) as PO. pose proof (y_elem _ _ _ _ _ _ V) as PE. rewrite Epc in PP, PO, PE. cbn [wantp] in PP, PO, PE.
        assert (PC : forall q, wantc (q_pc tc) = Some q -> q = length M). { intros q Hq. destruct (PP q Hq) as (_ & A & B). destruct (decide (q < length M)%nat) as [X|X]; [discriminate (B X)|lia]. }
        split; rest V Epc; rewrite ?EL.
        * lia.
        * intros p [= <-]. split; [lia|]. split; [lia|]. exists KPushBack, x, rest. split; [exact Epr|]. split; [intros _; apply list_lookup_middle; reflexivity|lia].
        * intros p Hp. pose proof (PC p Hp) as ->. split; [lia|]. split; [lia|auto].
        * intros q Hq. rewrite (PO q Hq). split.
          -- intros [(X & _)|(_ & [X|X])]; [discriminate|left; pose proof (PC q X); subst q; split; [reflexivity|]; split; [exact X|lia]|right; split; [intros [= Y]; lia|lia]].
          -- intros [(_ & X & _)|(X & [Y|Y])]; right; (split; [discriminate|]); auto. destruct (decide (q = length M)) as [-> |]; [congruence|right; lia].
        * intros q Hq Hne. assert (q <> length M) by (intros ->; apply Hne; reflexivity). rewrite lookup_app_l by lia. apply PE; [lia|discriminate].
        * lia.
        * apply (acct_count _ _ _ _ None (QPush KPushBack x) rest); [exact (y_accp _ _ _ _ _ _ V)|rewrite Epc; reflexivity|exact Epr|reflexivity|reflexivity].
        * apply acct_other; [exact (y_accc _ _ _ _ _ _ V)|discriminate].
        * apply dom_snoc; [lia|exact (y_dom _ _ _ _ _ _ V)].
        * eapply lifo_snoc; [exact (y_lifo _ _ _ _ _ _ V)|]. cbn. auto.
    - destruct (q_locks s !! p) as [[]|]; [| |discriminate]; injection E as <- <-; exists M, []; rewrite app_nil_r; [exact V|]. apply (ymove_p s); rewrite ?Epc; auto; discriminate.
    - destruct (q_occ s !! p) as [[]|]; [| |discriminate]; injection E as <- <-; exists M, []; rewrite app_nil_r; apply (ymove_p s); rewrite ?Epc; auto; discriminate.
    - (* the value is stored *)
      injection E as <- <-. exists M, []. rewrite app_nil_r. destruct Htk as [Hp _].
      assert (Hother : forall q, (q < cap)%nat -> incs q tc = 1 -> q <> p).
      { intros q Hq Hi ->. pose proof (h_excl _ _ _ F p Hp) as X. unfold incs at 1 in X. rewrite Epc, at_same in X. lia. }
      destruct (h_tokc _ _ _ F) as [_ Htkc].
      split; rest V Epc.
      + intros q Hq Hw Ho. rewrite lkd_insert by lia. rewrite decide_False by congruence. exact (y_data _ _ _ _ _ _ V q Hq Hw Ho).
      + intros q Hq Hne. rewrite lkd_insert by lia. rewrite decide_False by congruence. apply (y_elem _ _ _ _ _ _ V q Hq). rewrite Epc. exact Hne.
      + intros q [= <-]. exists KPushBack, x, rest. split; [exact Epr|]. rewrite lkd_insert by lia. rewrite decide_True by reflexivity. reflexivity.
      + intros q Hq. rewrite Hq in Htkc. destruct Htkc as [Hqc _]. rewrite lkd_insert by lia. rewrite decide_False; [exact (y_read _ _ _ _ _ _ V q Hq)|]. apply Hother; [exact Hqc|]. unfold incs. rewrite Hq. apply at_same.
      + apply acct_goto; [exact (y_accp _ _ _ _ _ _ V)|rewrite Epc; reflexivity].
    - (* the slot is marked as occupied *)
      injection E as <- <-. exists M, []. rewrite app_nil_r. destruct Htk as [Hp _].
      destruct (y_push _ _ _ _ _ _ V p ltac:(rewrite Epc; reflexivity)) as (_ & B1 & k' & x' & rest' & Ex & B2 & B3). rewrite Epr in Ex. injection Ex as <- <- <-.
      destruct (y_set _ _ _ _ _ _ V p Epc) as (k' & x' & rest' & Ex & B4). rewrite Epr in Ex. injection Ex as <- <- <-.
      pose proof (y_pop _ _ _ _ _ _ V) as PP. pose proof (y_occ _ _ _ _ _ _ V) as PO. pose proof (y_elem _ _ _ _ _ _ V) as PE. rewrite Epc in PP, PO, PE. cbn [wantp] in PP, PO, PE.
      assert (Hnot : wantc (q_pc tc) = Some p -> (length M <= p)%nat).
      { intros Hw. destruct (decide (length M <= p)%nat) as [|X]; [assumption|]. exfalso. rewrite (proj2 (PO p Hp)) in Hloc; [discriminate|]. left. split; [reflexivity|]. split; [exact Hw|lia]. }
      split; rest V Epc.
      + intros q Hq. destruct (PP q Hq) as (X1 & X2 & X3). split; [exact X1|]. split; [exact X2|]. intros X. exfalso. specialize (X3 X). injection X3 as ->. specialize (Hnot Hq). lia.
      + intros q Hq. rewrite lk_insert by lia. destruct (decide (q = p)) as [-> |Hne].
        * split; [intros _|reflexivity]. right. split; [discriminate|]. destruct (decide (p < length M)%nat); [right; assumption|]. left. apply B3. lia.
        * rewrite (PO q Hq). split; [intros [(X & _)|(_ & X)]; [congruence|right; split; [discriminate|exact X]]|]. intros [(X & _)|(_ & X)]; [discriminate|right; split; [congruence|exact X]].
      + intros q Hq Hw Ho. rewrite lk_insert in Ho by lia. destruct (decide (q = p)) as [-> |Hne].
        * rewrite B4. symmetry. apply B3. apply Hnot. exact Hw.
        * exact (y_data _ _ _ _ _ _ V q Hq Hw Ho).
      + intros q Hq _. destruct (decide (q = p)) as [-> |Hne]; [rewrite B4, (B2 Hq); reflexivity|]. apply PE; [exact Hq|congruence].
      + apply acct_goto; [exact (y_accp _ _ _ _ _ _ V)|rewrite Epc; reflexivity].
    - destruct Htk as (_ & _ & X). congruence.
    - destruct Htk as (_ & _ & X). congruence.
    - destruct Htk as (_ & _ & X). congruence.
    - destruct r as [r|]; injection E as <- <-; exists M, []; rewrite app_nil_r.
      + destruct Htk as (_ & _ & Hr). destruct r as [z|z| |]; try contradiction; [|congruence]. destruct Hr as (k' & rest' & Ex). injection Ex as <- <- <-.
        split; rest V Epc.
        * eapply (acct_done _ _ _ _ _ (QPush KPushBack x)); [exact (y_accp _ _ _ _ _ _ V)|rewrite Epc; reflexivity|exact Epr|reflexivity].
        * apply oob_snoc; [exact (y_oobp _ _ _ _ _ _ V)|discriminate].
      + apply (ymove_p s); rewrite ?Epc; auto; discriminate.
  Qed.

  Lemma ystep_c s tp tc M v H s' tc' : yfacts s tp tc -> yinv s tp tc M v H -> step 1 s tc = Some (s', tc') -> exists M' v' H2, yinv s' tp tc' M' v' (H ++ H2).
  Proof using All.
    intros F V E. destruct (h_len _ _ _ F) as (L1 & L2 & L3). destruct (y_n _ _ _ _ _ _ V) as (Q1 & Q2).
    destruct (h_tokc _ _ _ F) as [_ Htk]. pose proof (h_locc _ _ _ F) as Hloc. unfold local_ok in Hloc.
    unfold qstep in E. destruct (q_prog tc) as [|op rest] eqn:Epr; [discriminate|]. pose proof (vcons_head _ _ _ _ _ (y_accc _ _ _ _ _ _ V) Epr) as ->.
    assert (Epu : pushing tc = false) by (unfold pushing; rewrite Epr; reflexivity).
    destruct (q_pc tc) as [|n|p|p|p|p|p|p|p y|p r] eqn:Epc; rewrite ?Epc in *.
    - injection E as <- <-. exists M, v, []. rewrite app_nil_r. apply (ymove_c s); rewrite ?Epc; auto; try discriminate. intros n [= <-]. reflexivity.
    - pose proof (y_ctlc _ _ _ _ _ _ V n Epc) as Hn. destruct n as [|[|]]; [| |lia]; cbn [kind_of vctl] in E.
      + destruct (clamp_size (Z.of_nat cap) (q_c s) =? 0) eqn:Ecl; injection E as <- <-.
        * exists M, v, [(1%nat, (QPop KPopBack, Refused))]. apply Z.eqb_eq in Ecl.
          assert (Hempty : length M = 0%nat). { unfold clamp_size in Ecl. destruct (Z.ltb_spec (q_c s) 0); [lia|]. destruct (Z.ltb_spec (Z.of_nat cap) (q_c s)); lia. }
          split; rest V Epc.
          -- intros p y [?|?]; discriminate.
          -- apply acct_other; [exact (y_accp _ _ _ _ _ _ V)|discriminate].
          -- apply (acct_reject _ _ _ _ _ _ rest); [exact (y_accc _ _ _ _ _ _ V)|rewrite Epc; reflexivity|exact Epr].
          -- apply dom_snoc; [lia|exact (y_dom _ _ _ _ _ _ V)].
          -- apply oob_snoc; [exact (y_oobc _ _ _ _ _ _ V)|discriminate].
          -- eapply lifo_snoc; [exact (y_lifo _ _ _ _ _ _ V)|]. cbn. split; [lia|reflexivity].
        * exists M, v, []. rewrite app_nil_r. apply Z.eqb_neq in Ecl. assert (Hgate : (0 < length M)%nat). { unfold clamp_size in Ecl. destruct (Z.ltb_spec (q_c s) 0); [lia|]. destruct (Z.ltb_spec (Z.of_nat cap) (q_c s)); lia. }
          split; rest V Epc.
          -- intros n [= <-]. lia.
          -- intros p y [?|?]; discriminate.
          -- apply acct_goto; [exact (y_accc _ _ _ _ _ _ V)|rewrite Epc; reflexivity].
      + (* the slot is claimed *)
        pose proof (y_gatec _ _ _ _ _ _ V Epc) as Hgate. cbv zeta in E. rewrite (proj2 (Z.leb_le 0 (q_c s - 1))), (proj2 (Z.ltb_lt (q_c s - 1) _)) in E by lia. cbn [andb] in E. injection E as <- <-.
        rewrite Q1. replace (Z.to_nat (Z.of_nat (length M) - 1)) with (length M - 1)%nat by lia.
        destruct M as [|y M] using rev_ind; [cbn in Hgate; lia|]. clear IHM. assert (EL : length (M ++ [y]) = S (length M)) by (rewrite app_length; cbn; lia). rewrite EL in *. replace (S (length M) - 1)%nat with (length M) by lia.
        exists M, (Some y), [(1%nat, (QPop KPopBack, Popped y))].
        pose proof (y_push _ _ _ _ _ _ V) as PP. pose proof (y_occ _ _ _ _ _ _ V) as PO. pose proof (y_elem _ _ _ _ _ _ V) as PE. rewrite Epc in PP, PO. cbn [wantc] in PP, PO. rewrite EL in PP, PO, PE.
        assert (PC : forall q, wantp (q_pc tp) = Some q -> q = length M). { intros q Hq. destruct (PP q Hq) as (_ & A & k' & x & rest' & _ & _ & B). destruct (decide (S (length M) <= q)%nat) as [X|X]; [destruct (B X) as [B1 _]; discriminate B1|lia]. }
        assert (Ey : (M ++ [y]) !! length M = Some y) by (apply list_lookup_middle; reflexivity).
        split; rest V Epc.
        * lia.
        * intros q Hq. destruct (PP q Hq) as (A1 & A2 & k' & x & rest' & A3 & A4 & _). pose proof (PC q Hq) as ->. split; [exact A1|]. split; [lia|]. exists k', x, rest'. split; [exact A3|]. split; [lia|]. intros _. split; [reflexivity|]. rewrite <- A4, Ey by lia. reflexivity.
        * intros q [= <-]. split; [lia|]. split; [lia|lia].
        * intros q Hq. rewrite (PO q Hq). split.
          -- intros [(_ & X & _)|(X & [Y|Y])]; [discriminate|discriminate|]. right. split; [exact X|]. destruct (decide (q = length M)) as [-> |]; [left; reflexivity|right; lia].
          -- intros [(_ & [= <-] & X)|(X & Y)]; [lia|]. right. split; [exact X|]. right. destruct Y as [[= <-]|Y]; lia.
        * intros q Hq [= <-] Ho. assert (X : wantp (q_pc tp) <> Some (length M)). { apply (PO _ Hq) in Ho. destruct Ho as [(_ & X & _)|(X & _)]; [discriminate|exact X]. } rewrite (PE (length M)) by (lia || exact X). exact Ey.
        * intros q Hq Hne. rewrite (PE q) by (lia || exact Hne). apply lookup_app_l. exact Hq.
        * intros p z [?|?]; discriminate.
        * apply acct_other; [exact (y_accp _ _ _ _ _ _ V)|discriminate].
        * apply (acct_count _ _ _ _ v (QPop KPopBack) rest); [exact (y_accc _ _ _ _ _ _ V)|rewrite Epc; reflexivity|exact Epr|reflexivity|]. exists y. auto.
        * apply dom_snoc; [lia|exact (y_dom _ _ _ _ _ _ V)].
        * eapply lifo_snoc; [exact (y_lifo _ _ _ _ _ _ V)|]. reflexivity.
    - destruct (q_locks s !! p) as [[]|]; [| |discriminate]; injection E as <- <-; exists M, v, []; rewrite app_nil_r; [exact V|]. apply (ymove_c s); rewrite ?Epc; auto; discriminate.
    - destruct (q_occ s !! p) as [[]|]; [| |discriminate]; injection E as <- <-; exists M, v, []; rewrite app_nil_r; apply (ymove_c s); rewrite ?Epc; auto; discriminate.
    - destruct Htk as (_ & X). congruence.
    - destruct Htk as (_ & X). congruence.
    - (* the slot is marked as free *)
      injection E as <- <-. exists M, v, []. rewrite app_nil_r. destruct Htk as [Hp _].
      destruct (y_pop _ _ _ _ _ _ V p ltac:(rewrite Epc; reflexivity)) as (_ & B1 & B2).
      pose proof (y_push _ _ _ _ _ _ V) as PP. pose proof (y_occ _ _ _ _ _ _ V) as PO. rewrite Epc in PP, PO. cbn [wantc] in PP, PO.
      assert (Hin : wantp (q_pc tp) = Some p -> (p < length M)%nat). { intros Hw. apply (PO p Hp) in Hloc. destruct Hloc as [(_ & _ & X)|(X & _)]; [exact X|congruence]. }
      split; rest V Epc.
      + intros q Hq. destruct (PP q Hq) as (A1 & A2 & k' & x & rest' & A3 & A4 & A5). split; [exact A1|]. split; [exact A2|]. exists k', x, rest'. split; [exact A3|]. split; [exact A4|]. intros X. exfalso. destruct (A5 X) as [[= ->] _]. specialize (Hin Hq). lia.
      + intros q Hq. rewrite lk_insert by lia. destruct (decide (q = p)) as [-> |Hne].
        * split; [discriminate|]. intros [(_ & X & _)|(X & [Y|Y])]; [discriminate|discriminate|]. destruct (X (B2 Y)).
        * rewrite (PO q Hq). split.
          -- intros [(_ & X & _)|(X & [Y|Y])]; [congruence|congruence|]. right. split; [exact X|right; exact Y].
          -- intros [(_ & X & _)|(X & [Y|Y])]; [discriminate|discriminate|]. right. split; [exact X|right; exact Y].
      + intros q [= <-]. apply (y_data _ _ _ _ _ _ V p Hp); [rewrite Epc; reflexivity|exact Hloc].
      + intros ? ? [?|?]; discriminate.
      + apply acct_goto; [exact (y_accc _ _ _ _ _ _ V)|rewrite Epc; reflexivity].
    - (* the value is copied *)
      destruct (q_data s !! p) as [[y|]|] eqn:Ed; try discriminate. injection E as <- <-. exists M, v, []. rewrite app_nil_r.
      assert (Hy : v = Some y) by (rewrite <- (y_read _ _ _ _ _ _ V p Epc); unfold lkd; rewrite Ed; reflexivity).
      split; rest V Epc.
      + intros q z [[= <- <-]|?]; [exact Hy|discriminate].
      + apply acct_goto; [exact (y_accc _ _ _ _ _ _ V)|rewrite Epc; reflexivity].
    - (* the value is destroyed *)
      injection E as <- <-. exists M, v, []. rewrite app_nil_r. destruct Htk as [Hp _]. destruct Hloc as [Hocc _]. pose proof (y_got _ _ _ _ _ _ V p y (or_introl Epc)) as Hy.
      assert (Hother : forall q, (q < cap)%nat -> incs q tp = 1 -> q <> p).
      { intros q Hq Hi ->. pose proof (h_excl _ _ _ F p Hp) as X. unfold incs at 2 in X. rewrite Epc, at_same in X. lia. }
      destruct (h_tokp _ _ _ F) as [_ Htkp].
      pose proof (y_occ _ _ _ _ _ _ V p Hp) as PO. rewrite Epc in PO. cbn [wantc] in PO.
      split; rest V Epc.
      + intros q Hq Hne. rewrite lkd_insert by lia. rewrite decide_False; [exact (y_elem _ _ _ _ _ _ V q Hq Hne)|]. intros ->. rewrite (proj2 PO) in Hocc; [discriminate|]. right. auto.
      + intros q Hq. rewrite Hq in Htkp. destruct Htkp as [Hqc _]. rewrite lkd_insert by lia. rewrite decide_False; [exact (y_set _ _ _ _ _ _ V q Hq)|]. apply Hother; [exact Hqc|]. unfold incs. rewrite Hq. apply at_same.
      + intros q z [?|[= <- <-]]; [discriminate|exact Hy].
      + apply acct_goto; [exact (y_accc _ _ _ _ _ _ V)|rewrite Epc; reflexivity].
    - destruct r as [r|]; injection E as <- <-; exists M, v, []; rewrite app_nil_r.
      + destruct Htk as (_ & _ & Hr). destruct r as [z|z| |]; try contradiction; [destruct Hr as (? & ? & ?); congruence|].
        split; rest V Epc.
        * intros ? ? [?|?]; discriminate.
        * eapply (acct_done _ _ _ _ _ (QPop KPopBack)); [exact (y_accc _ _ _ _ _ _ V)|rewrite Epc; reflexivity|exact Epr|]. exists z. split; [|reflexivity]. exact (y_got _ _ _ _ _ _ V p z (or_intror Epc)).
        * apply oob_snoc; [exact (y_oobc _ _ _ _ _ _ V)|discriminate].
      + apply (ymove_c s); rewrite ?Epc; auto; discriminate.
  Qed.

  Lemma vpair_accounts s tp tc M v H : yinv s tp tc M v H -> accounts progs [tp; tc] H.
  Proof using Type.
    intros V. split; [exact (y_dom _ _ _ _ _ _ V)|].
    assert (A : forall j prog t v, acct H j prog t v -> calls_by j H = zip prog (q_log t) \/ exists op rest r, q_pc t <> QIdle /\ q_prog t = op :: rest /\ calls_by j H = zip prog (q_log t) ++ [(op, r)]).
    { intros j prog t v0 (past & -> & A2 & A3). rewrite zip_prefix by exact A2. rewrite A3. unfold emit. destruct (q_prog t) as [|[k x|k] rest] eqn:Ep; [left; apply app_nil_r| |].
      - destruct (counted (q_pc t)) eqn:Ec; [|left; destruct v0; apply app_nil_r]. right. exists (QPush k x), rest, (Pushed x). split; [intros X; rewrite X in Ec; discriminate|]. auto.
      - destruct v0 as [y|]; [|left; apply app_nil_r]. destruct (counted (q_pc t)) eqn:Ec; [|left; apply app_nil_r]. right. exists (QPop k), rest, (Popped y). split; [intros X; rewrite X in Ec; discriminate|]. auto. }
    intros i t prog Ht Hp. destruct i as [|[|i]]; cbn in Ht, Hp; try discriminate; injection Ht as <-; injection Hp as <-; eapply A; [exact (y_accp _ _ _ _ _ _ V)|exact (y_accc _ _ _ _ _ _ V)].
  Qed.
  Lemma vppasses_reach past c : passes step start past c -> reach step start c.
  Proof using Type. induction 1 as [|past c c' _ IH Hs]; [apply rtc_refl|]. eapply rtc_r; eassumption. Qed.
  Lemma vpair_run past s ls : passes step start past (s, ls) -> exists tp tc M v H, ls = [tp; tc] /\ yinv s tp tc M v H /\ in_order progs past ls H.
  Proof using All.
    intros R. remember (s, ls) as c eqn:Ec. revert s ls Ec. induction R as [|past c c' R IH Hs]; intros s ls Ec.
    - injection Ec as <- <-. eexists _, _, l, None, []. split; [reflexivity|]. split; [exact yinv_start|]. split; [exact (vpair_accounts _ _ _ _ _ _ yinv_start)|]. intros c1 Hc. inversion Hc.
    - destruct c as [s0 ls0]. subst c'. destruct (IH s0 ls0 eq_refl) as (tp & tc & M & v & H & -> & V & A1 & A2).
      destruct (vpair_facts s0 _ (vppasses_reach _ _ R)) as (tp2 & tc2 & [= <- <-] & F).
      assert (X : exists tp' tc' M' v' H2, ls = [tp'; tc'] /\ yinv s tp' tc' M' v' (H ++ H2)).
      { inversion Hs as [s1 ls1 i t s2 t2 Hi Hst]; subst. destruct i as [|[|i]]; cbn in Hi; try discriminate; injection Hi as <-.
        - destruct (ystep_p _ _ _ _ _ _ _ _ F V Hst) as (M' & H2 & V'). exists t2, tc, M', v, H2. auto.
        - destruct (ystep_c _ _ _ _ _ _ _ _ F V Hst) as (M' & v' & H2 & V'). exists tp, t2, M', v', H2. auto. }
      destruct X as (tp' & tc' & M' & v' & H2 & -> & V'). exists tp', tc', M', v', (H ++ H2). split; [reflexivity|]. split; [exact V'|]. split; [exact (vpair_accounts _ _ _ _ _ _ V')|].
      intros c1 Hc. apply elem_of_cons in Hc as [-> |Hc]; [exists H, H2; auto|]. destruct (A2 c1 Hc) as (ha & hb & -> & A3). exists ha, (hb ++ H2). rewrite app_assoc. auto.
  Qed.
  Lemma vpair_rest s tp tc M v H : reach step start (s, [tp; tc]) -> yinv s tp tc M v H -> q_pc tp = QIdle -> q_pc tc = QIdle -> s = vec_conc_start cap M.
  Proof using All.
    intros Re V Hp1 Hp2. pose proof (reach_inv cap l Hl progs vpair_wf s _ Re) as I.
    assert (Hqu : quiescent [tp; tc]) by (intros t Ht; apply elem_of_cons in Ht as [-> |Ht]; [exact Hp1|]; apply elem_of_list_singleton in Ht as ->; exact Hp2).
    destruct (at_rest cap _ _ _ _ _ I Hqu) as [Hrest _]. destruct (i_len _ _ _ _ _ _ I) as (L1 & L2 & L3).
    destruct (y_n _ _ _ _ _ _ V) as (Q1 & Q2). pose proof (y_occ _ _ _ _ _ _ V) as PO. pose proof (y_elem _ _ _ _ _ _ V) as PE. rewrite Hp1, Hp2 in PO. rewrite Hp1 in PE. cbn [wantp wantc] in *.
    assert (Hoc : forall p, (p < cap)%nat -> lk (q_occ s) p = bool_decide (p < length M)%nat).
    { intros p Hp. apply Bool.eq_true_iff_eq. rewrite bool_decide_eq_true, (PO p Hp). split; [intros [(X & _)|(_ & [X|X])]; [discriminate|discriminate|exact X]|]. intros X. right. split; [discriminate|right; exact X]. }
    assert (Hdt : forall p, (p < cap)%nat -> lkd (q_data s) p = M !! p).
    { intros p Hp. destruct (decide (p < length M)%nat) as [Hd|Hd]; [apply PE; [exact Hd|discriminate]|].
      rewrite lookup_ge_None_2 by lia. destruct (Hrest p Hp) as (_ & _ & H3). pose proof (Hoc p Hp) as X. rewrite bool_decide_eq_false_2 in X by exact Hd. destruct (lkd (q_data s) p); [|reflexivity]. rewrite X in H3. discriminate. }
    assert (Hlk : forall p, (p < cap)%nat -> lk (q_locks s) p = false) by (intros p Hp; apply (Hrest p Hp)).
    pose proof (fun p Hp => start_lookup cap M Q2 p Hp) as SL.
    clear -L1 L2 L3 Hoc Hdt Hlk Q1 Q2 SL. destruct s as [c d o lk0]. cbn [q_c q_data q_occ q_locks] in *.
    assert (ED : forall p, (p < cap)%nat -> lkd d p = lkd (q_data (vec_conc_start cap M)) p) by (intros p Hp; rewrite (Hdt p Hp); symmetry; apply (SL p Hp)).
    assert (EO : forall p, (p < cap)%nat -> lk o p = lk (q_occ (vec_conc_start cap M)) p) by (intros p Hp; rewrite (Hoc p Hp); symmetry; apply (SL p Hp)).
    unfold vec_conc_start in *. cbn [q_data q_occ] in *. f_equal.
    - exact Q1.
    - apply list_eq. intros p. destruct (decide (p < cap)%nat) as [Hp|Hp]; [|rewrite !lookup_ge_None_2; [reflexivity|rewrite app_length, fmap_length, replicate_length; lia|lia]].
      rewrite (lkd_Some d p), lkd_Some by (rewrite ?app_length, ?fmap_length, ?replicate_length; lia). rewrite ED by exact Hp. reflexivity.
    - apply list_eq. intros p. destruct (decide (p < cap)%nat) as [Hp|Hp]; [|rewrite !lookup_ge_None_2; [reflexivity|rewrite app_length, !replicate_length; lia|lia]].
      rewrite (lk_Some o p), lk_Some by (rewrite ?app_length, ?replicate_length; lia). rewrite EO by exact Hp. reflexivity.
    - apply list_eq. intros p. destruct (decide (p < cap)%nat) as [Hp|Hp]; [|rewrite !lookup_ge_None_2; [reflexivity|rewrite replicate_length; lia|lia]].
      rewrite lookup_replicate_2 by exact Hp. rewrite lk_Some by lia. rewrite Hlk by exact Hp. reflexivity.
  Qed.
End vpair.
