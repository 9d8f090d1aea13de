(** Kernels with one erasing thread and any number of inserting threads can always complete (C65): the calls. *)
From Verif Require Import Base Conc SlotModel SlotSpec SlotProofs VectorModel VectorProofs VectorConcProofs UnorderedModel UnorderedSpec UnorderedProofs UConcModel UConcSpec UConcProofs UConcEnd UConcReach UEraseModel UEraseSpec UEraseProofs UMixVec UMixShape UOneVec UOneDefs UOneUpd UOneStep UOneLink UOneMain UOneSpec UOneTop UProgSpec UWalk UOneProg.

Lemma pop_counter E i (x : qshared Z Z) (q : qthread Z) x1 q1 : q_prog q = [QPop KPopBack] -> qstep (vctl E) i x q = Some (x1, q1) ->
  q_c x1 <= q_c x /\ (q_prog q1 = [] -> q_log q = [] -> tok E q -> (forall y, last (q_log q1) <> Some (Popped y)) -> clamp_size (Z.of_nat E) (q_c x1) = 0 \/ q_c x1 < q_c x).
Proof.
  intros Eq Hs. unfold qstep in Hs. rewrite Eq in Hs.
  destruct (q_pc q) as [|m|y|y|y|y|y|y|y z|y r] eqn:Epc; cbn [kind_of] in Hs.
  - injection Hs as <- <-. split; [lia|]. cbn. congruence.
  - destruct m as [|m]; cbn [vctl] in Hs.
    + destruct (clamp_size _ _ =? 0) eqn:Ez; injection Hs as <- <-; (split; [cbn; lia|]); cbn; [intros; left; lia|congruence].
    + unfold vctl in Hs. destruct ((0 <=? q_c x - 1) && (q_c x - 1 <? Z.of_nat E)) eqn:Ez; injection Hs as <- <-; cbn; (split; [cbn; lia|]); [congruence|]. intros. right. lia.
  - destruct (q_locks x !! y) as [[]|]; try discriminate; injection Hs as <- <-; (split; [cbn; lia|]); cbn; congruence.
  - destruct (q_occ x !! y) as [[]|]; try discriminate; injection Hs as <- <-; (split; [cbn; lia|]); cbn; congruence.
  - discriminate.
  - discriminate.
  - injection Hs as <- <-; (split; [cbn; lia|]); cbn; congruence.
  - destruct (q_data x !! y) as [[]|]; try discriminate; injection Hs as <- <-; (split; [cbn; lia|]); cbn; congruence.
  - injection Hs as <- <-; (split; [cbn; lia|]); cbn; congruence.
  - destruct r as [r|]; injection Hs as <- <-; (split; [cbn; lia|]); cbn; [|congruence]. intros _ El [_ Hok] HP. exfalso. rewrite El in HP. cbn in HP. rewrite Epc in Hok.
    destruct Hok as (_ & _ & Hok). destruct r as [z|z| |]; [destruct Hok as (k & r0 & E0); rewrite Eq in E0; discriminate|exact (HP z eq_refl)|contradiction..].
Qed.

Section prog.
  Context {K V : Type} (kf : V -> K) (hash : K -> Z) (keq : K -> K -> bool) (bc E : nat).
  Hypothesis HP : key_equality keq /\ hash_respects keq hash /\ sizes_ok bc E.
  Context (ie : nat) (M0 : list V).
  Notation n := (bc + E)%nat.
  Notation bkt := (bkt hash bc).
  Notation oinv := (oinv kf hash keq bc E ie M0).
  Notation heldt := (heldt kf hash bc).
  Notation kn := (kn kf hash keq bc E).
  Notation step := (estep kf hash keq bc E).
  Notation solo := (solo step).
  Notation at_call := (at_call kf hash bc).
  Notation FL f := (f kf hash keq bc E ie M0).
  Notation good := (good kf hash keq bc E ie M0).
  Notation GL f := (f kf hash keq bc E HP ie M0).
  Implicit Types (s : cshared V) (t : cthread K V) (ls : list (cthread K V)) (C : list (list nat)) (F X : list nat) (R : list V) (op : cop K V).
  Let Eb k : bucket_of hash bc k = Some (bkt k). Proof using HP. apply (mx_bucket hash keq bc E HP). Qed.
  Let Hb k : (bkt k < bc)%nat. Proof using HP. apply (mx_bkt hash keq bc E HP). Qed.
  Let Hst : forall i s t, no_destroy (c_pc t) -> step i s t = ustep kf hash keq bc E i s t.
  Proof. intros i s t H. unfold estep. destruct (c_pc t); try reflexivity; destruct H. Qed.

  (** *** calls of the vector of free entries *)
  Definition no_vec t : Prop := match c_pc t with IPop _ _ | XPush _ _ _ => False | _ => True end.
  Lemma no_vec_proj t : no_vec t -> projt t = fresh_call [].
  Proof. unfold no_vec, projt. destruct (c_pc t); try reflexivity; contradiction. Qed.
  Definition vnext (pc : upc) (q1 : qthread Z) (pc1 : upc) : Prop :=
    match pc with
    | IPop e _ => (q_prog q1 <> [] /\ pc1 = IPop e q1) \/ (q_prog q1 = [] /\ ((exists p, pc1 = IConL e p) \/ (pc1 = IUnlL e None /\ forall y, last (q_log q1) <> Some (Popped y))))
    | XPush p q _ => (q_prog q1 <> [] /\ pc1 = XPush p q q1) \/ (q_prog q1 = [] /\ pc1 = XUnl1 p q true)
    | _ => False
    end.
  Lemma good_kn s ls i t op rest : good s ls -> ls !! i = Some t -> c_prog t = op :: rest -> exists C, kn s C op (c_pc t).
  Proof. intros [(C & F & X & R & I) _] Hi Ep. exists C. exact (FL s_kn s ls C F X R i t op rest I Hi Ep). Qed.
  Lemma busy s ls i t : good s ls -> ls !! i = Some t -> c_pc t <> UIdle -> exists op rest, c_prog t = op :: rest.
  Proof. intros Hg Hi Hne. destruct (c_prog t) as [|op rest] eqn:Ep; [|eauto]. destruct Hne. exact (good_idle kf hash keq bc E ie M0 s ls i t Hg Hi Ep). Qed.
  Lemma vec_moves s ls i t y q1 : good s ls -> ls !! i = Some t -> ~ no_vec t -> qstep (vctl E) i (c_ex s) (projt t) = Some (y, q1) ->
    exists pc1, step i s t = Some (put_ex s y, cgo t pc1) /\ vnext (c_pc t) q1 pc1.
  Proof using HP.
    intros Hg Hi Hv Hq. destruct (busy s ls i t Hg Hi) as (op & rest & Ep); [intros Epc; apply Hv; unfold no_vec; rewrite Epc; exact Logic.I|].
    destruct (GL good_step s ls i t Hg Hi) as (s' & t' & Hs & _); [congruence|]. rewrite Hs. unfold estep, ustep in Hs. rewrite Ep, Eb in Hs. unfold no_vec in Hv. unfold projt in Hq.
    destruct (c_pc t) eqn:Epc; try (destruct Hv; exact Logic.I); cbn [proj_at] in Hq; rewrite Hq in Hs; cbn [vnext].
    - destruct (q_prog q1) as [|o l] eqn:E1.
      + destruct (last (q_log q1)) as [[z|z| |]|] eqn:El; try (destruct (0 <=? z); [|discriminate]); injection Hs as <- <-; eexists; (split; [reflexivity|]); right; (split; [reflexivity|]); try (left; eexists; reflexivity); right; (split; [reflexivity|]); intros y0; congruence.
      + injection Hs as <- <-. eexists. split; [reflexivity|]. left. split; [discriminate|reflexivity].
    - injection Hs as <- <-. eexists. split; [reflexivity|]. destruct (q_prog q1); [right; auto|left]. split; [discriminate|reflexivity].
  Qed.
  Definition vend (pc pc' : upc) s s' : Prop :=
    match pc with
    | IPop e _ => (exists p, pc' = IConL e p) \/ (pc' = IUnlL e None /\ (clamp_size (Z.of_nat E) (q_c (c_ex s')) = 0 \/ q_c (c_ex s') < q_c (c_ex s)))
    | XPush p q _ => pc' = XUnl1 p q true
    | _ => False
    end.
  Lemma vec_prog s ls i t : good s ls -> ls !! i = Some t -> ~ no_vec t -> q_prog (projt t) <> [].
  Proof.
    intros Hg Hi Hv. destruct (busy s ls i t Hg Hi) as (op & rest & Ep); [intros Epc; apply Hv; unfold no_vec; rewrite Epc; exact Logic.I|].
    destruct (good_kn s ls i t op rest Hg Hi Ep) as [C Hk]. unfold no_vec in Hv. unfold projt. destruct (c_pc t); try (destruct Hv; exact Logic.I); cbn in Hk |- *.
    - destruct Hk as (_ & _ & -> & _). discriminate.
    - destruct Hk as (_ & _ & _ & (-> & _) & _). discriminate.
  Qed.
  Lemma vec_solo i c c' : UProgSpec.solo (qstep (vctl E)) i c c' -> q_prog c'.2 = [] -> forall s ls t, good s ls -> ls !! i = Some t -> ~ no_vec t -> c = (c_ex s, projt t) ->
    exists s' pc', solo i (s, t) (s', cgo t pc') /\ vend (c_pc t) pc' s s'.
  Proof using HP.
    intros R Hd. induction R as [c|c [y q1] c2 Hs R IH]; intros s ls t Hg Hi Hv ->; [destruct (vec_prog s ls i t Hg Hi Hv Hd)|]. cbn [fst snd] in Hs.
    destruct (vec_moves s ls i t y q1 Hg Hi Hv Hs) as (pc1 & Hs1 & Hn).
    assert (Hlt : (i < length ls)%nat) by (eapply lookup_lt_Some; exact Hi).
    assert (Hg1 : good (put_ex s y) (<[i := cgo t pc1]> ls)) by (eapply (GL good_reach); [exact Hg|]; eapply solo_reach; [apply solo_one; exact Hs1|exact Hi]).
    assert (Hlast : q_prog q1 = [] -> vend (c_pc t) pc1 s (put_ex s y)).
    { intros E1. destruct (busy s ls i t Hg Hi) as (op & rest & Ep); [intros Epc; apply Hv; unfold no_vec; rewrite Epc; exact Logic.I|]. destruct (good_kn s ls i t op rest Hg Hi Ep) as [C Hk].
      destruct Hg as [(C0 & F0 & X0 & R0 & I) _]. assert (Hok : tok E (projt t)) by (apply (i_tok _ _ _ _ _ _ (o_vec _ _ _ _ _ _ _ _ _ _ _ _ _ I)); apply elem_of_list_fmap; exists t; split; [reflexivity|eapply elem_of_list_lookup_2; exact Hi]).
      unfold projt in *. destruct (c_pc t); try contradiction; cbn [vnext vend UOneDefs.kn proj_at] in *.
      - destruct Hn as [[H _]|[_ [H|[H Hl]]]]; [congruence|left; exact H|right]. split; [exact H|]. destruct Hk as (_ & _ & Q1 & Q2). apply (pop_counter E i (c_ex s) q y q1 Q1 Hs); assumption.
      - destruct Hn as [[H _]|[_ H]]; [congruence|exact H]. }
    destruct (q_prog q1) as [|o l] eqn:E1; [exists (put_ex s y), pc1; split; [apply solo_one; exact Hs1|apply Hlast; reflexivity]|]. clear Hlast.
    assert (Hpr : projt (cgo t pc1) = q1 /\ ~ no_vec (cgo t pc1)).
    { unfold projt, no_vec. cbn [cgo c_pc]. destruct (c_pc t); try contradiction; cbn [vnext] in Hn; (destruct Hn as [[_ ->]|[H _]]; [auto|congruence]). }
    destruct Hpr as [Epr Hv1]. destruct (IH Hd (put_ex s y) (<[i := cgo t pc1]> ls) (cgo t pc1) Hg1 (list_lookup_insert _ _ _ Hlt) Hv1) as (s' & pc' & R' & He); [rewrite Epr; reflexivity|].
    exists s', pc'. split; [eapply solo_step; [exact Hs1|exact R']|]. destruct (busy s ls i t Hg Hi) as (op & rest & Ep); [intros Epc; apply Hv; unfold no_vec; rewrite Epc; exact Logic.I|]. destruct (good_kn s ls i t op rest Hg Hi Ep) as [C Hk].
    unfold projt in *. cbn [cgo c_pc] in *. destruct (c_pc t); try contradiction; cbn [vnext vend UOneDefs.kn proj_at] in *.
    - destruct Hn as [[_ ->]|[H _]]; [|congruence]. cbn [vend] in He. destruct He as [He|[He [Hz|Hz]]]; [left; exact He|right; auto|right]. split; [exact He|right]. destruct Hk as (_ & _ & Q1 & Q2). cbn [put_ex c_ex] in Hz. pose proof (proj1 (pop_counter E i (c_ex s) q y q1 Q1 Hs)). lia.
    - destruct Hn as [[_ ->]|[H _]]; [|congruence]. exact He.
  Qed.
  Definition others ls i (P : cthread K V -> Prop) : Prop := forall j tj, j <> i -> ls !! j = Some tj -> P tj.
  Lemma others_insert ls i P t' : others ls i P -> others (<[i := t']> ls) i P.
  Proof. intros H j tj Hne Hj. rewrite list_lookup_insert_ne in Hj by congruence. eapply H; eauto. Qed.
  Lemma vec_alone s ls i t : good s ls -> ls !! i = Some t -> ~ no_vec t -> others ls i no_vec -> exists s' pc', solo i (s, t) (s', cgo t pc') /\ vend (c_pc t) pc' s s'.
  Proof using HP.
    intros Hg Hi Hv Ho. assert (Hpi : (projt <$> ls) !! i = Some (projt t)) by (rewrite list_lookup_fmap, Hi; reflexivity).
    pose proof Hg as [(C & F & X & R & I) _].
    destruct (can_finish (vctl E) E vm (fun _ => True) (vctl_ok E) _ (fun c p _ _ => vm_range c p) _ _ (o_vec _ _ _ _ _ _ _ _ _ _ _ _ _ I)) as (x' & qs' & R' & Hf).
    destruct (solo_of_reach (qstep (vctl E)) i _ _ _ _ (projt t) R' Hpi) as (q' & R2 & ->).
    { intros j q0 Hne Hj x0. rewrite list_lookup_fmap in Hj. destruct (ls !! j) as [tj|] eqn:Hj'; [|discriminate]. injection Hj as <-. rewrite (no_vec_proj tj (Ho j tj Hne Hj')). reflexivity. }
    refine (vec_solo i _ _ R2 _ s ls t Hg Hi Hv eq_refl). apply (Hf q'). eapply elem_of_list_lookup_2. apply list_lookup_insert. eapply lookup_lt_Some. exact Hpi.
  Qed.
  Definition follows t (q : qthread Z) : Prop := projt t = q \/ (q_prog q = [] /\ no_vec t).
  Lemma vec_complete s ls : good s ls -> exists s' ls', Conc.reach step (s, ls) (s', ls') /\ good s' ls' /\ forall t, t ∈ ls' -> no_vec t.
  Proof using HP.
    intros Hg. pose proof Hg as [(C & F & X & R0 & I) _].
    destruct (can_finish (vctl E) E vm (fun _ => True) (vctl_ok E) _ (fun c p _ _ => vm_range c p) _ _ (o_vec _ _ _ _ _ _ _ _ _ _ _ _ _ I)) as (x' & qs' & R & Hf).
    assert (HL : forall c c', Conc.reach (qstep (vctl E)) c c' -> forall s ls, good s ls -> c_ex s = c.1 -> Forall2 follows ls c.2 ->
      exists s' ls', Conc.reach step (s, ls) (s', ls') /\ good s' ls' /\ Forall2 follows ls' c'.2).
    { clear s ls C F X R0 I Hg x' qs' R Hf. intros c c' R. induction R as [c|c c1 c2 Hs R IH]; intros s ls I Ex HF; [exists s, ls; split; [apply rtc_refl|auto]|].
      inversion Hs as [x qs i q x1 q1 Hi Hq]; subst. cbn [fst snd] in *. destruct (Forall2_lookup_r _ _ _ _ _ HF Hi) as (t & Ht & Hfo).
      assert (Hv : projt t = q /\ ~ no_vec t).
      { destruct Hfo as [Hp|[Hp _]]; [|unfold qstep in Hq; rewrite Hp in Hq; discriminate]. split; [exact Hp|]. intros Hn. rewrite (no_vec_proj t Hn) in Hp. subst q. unfold qstep in Hq. cbn in Hq. discriminate. }
      destruct Hv as [Epr Hv]. rewrite <- Ex, <- Epr in Hq. destruct (vec_moves s ls i t x1 q1 I Ht Hv Hq) as (pc1 & Hs1 & Hn).
      assert (RR : Conc.reach step (s, ls) (put_ex s x1, <[i := cgo t pc1]> ls)) by (eapply solo_reach; [apply solo_one; exact Hs1|exact Ht]).
      destruct (IH _ _ (GL good_reach _ _ _ _ I RR) eq_refl) as (s' & ls' & R' & I2 & H2).
      { apply Forall2_insert; [exact HF|]. unfold follows, projt, no_vec. cbn [cgo c_pc]. destruct (c_pc t); try contradiction; cbn [vnext] in Hn.
        - destruct Hn as [[_ ->]|[E1 [[p ->]|[-> _]]]]; [left; reflexivity|right; auto..].
        - destruct Hn as [[_ ->]|[E1 ->]]; [left; reflexivity|right; auto]. }
      exists s', ls'. split; [|auto]. etrans; [exact RR|exact R']. }
    destruct (HL _ _ R s ls Hg eq_refl) as (s' & ls' & R' & I' & HF).
    { cbn [snd]. apply Forall2_fmap_r. apply Forall_Forall2_diag. apply Forall_forall. intros t _. left. reflexivity. }
    exists s', ls'. split; [exact R'|]. split; [exact I'|]. intros t Ht. apply elem_of_list_lookup in Ht as [j Hj]. destruct (Forall2_lookup_l _ _ _ _ _ HF Hj) as (q & Hq & Hfo).
    destruct Hfo as [Hp|[_ Hp]]; [|exact Hp]. assert (Hdec : no_vec t \/ ~ no_vec t) by (unfold no_vec; destruct (c_pc t); auto). destruct Hdec as [H|Hn]; [exact H|exfalso]. apply (vec_prog s' ls' j t I' Hj Hn). rewrite Hp.
    apply (Hf q (elem_of_list_lookup_2 _ _ _ Hq)).
  Qed.

  (** *** attempts *)
  Definition returns i s t : Prop := exists s' op r rest, c_prog t = op :: rest /\ solo i (s, t) (s', cfinish t op r).
  Definition retries i s t : Prop := exists s' op rest, c_prog t = op :: rest /\ ~ isF op /\ solo i (s, t) (s', again t (bkt (op_key kf op)) op).
  Lemma returns_trans i s t s' pc : solo i (s, t) (s', cgo t pc) -> returns i s' (cgo t pc) -> returns i s t.
  Proof. intros H (s2 & op & r & rest & Ep & R). exists s2, op, r, rest. split; [exact Ep|]. eapply solo_trans; [exact H|exact R]. Qed.
  Lemma retries_trans i s t s' pc : solo i (s, t) (s', cgo t pc) -> retries i s' (cgo t pc) -> retries i s t.
  Proof.
    intros H (s2 & op & rest & Ep & Hf & R). exists s2, op, rest. split; [exact Ep|]. split; [exact Hf|]. eapply solo_trans; [exact H|]. replace (again t (bkt (op_key kf op)) op) with (again (cgo t pc) (bkt (op_key kf op)) op) by (destruct op; reflexivity). exact R.
  Qed.
  Definition frank (c : fctx) : nat := match c with FUser => 5 | FIns1 => 49 | FInsB => 46 | FInsL _ _ => 44 | FEr1 => 60 | FErB _ => 58 | FErL _ _ => 56 end.
  Definition rank (pc : upc) : nat :=
    match pc with
    | UIdle => 70 | UFullCheck => 51 | UEmptyCheck => 50
    | FOcc c _ | FVal c _ | FOff c _ | FAdd c _ => frank c
    | EOff EIns1 _ | EAdd EIns1 _ => 47 | EOff (EIns2 _) _ | EAdd (EIns2 _) _ => 45
    | POff (PEr1 _) _ _ | PAdd (PEr1 _) _ _ => 59 | POff (PEr2 _ _ _) _ _ | PAdd (PEr2 _ _ _) _ _ => 55
    | IOcc => 48 | ILockB => 47 | IOccB => 45 | IConB => 44 | ICntB => 43 | ISetB => 42 | IUnlB _ => 41
    | ILockL _ => 46 | IPop _ _ => 43 | IConL _ _ => 42 | IOffL _ _ => 41 | ICntL _ _ => 40 | ISetL _ _ => 39 | ILinkL _ _ => 38 | IUnlL _ _ => 37
    | XLockB _ => 59 | XResetB _ => 57 | XCntB _ => 56 | XDesB _ => 55 | XUnlB _ _ => 54
    | XLock1 _ _ => 58 | XLock2 _ _ => 57 | XBack _ => 50
    | XTest _ _ => 54 | XAdd1 _ _ => 53 | XAdd2 _ _ _ => 52 | XPut _ _ _ => 51 | XReset _ _ => 50 | XCnt _ _ => 49 | XDes _ _ => 48 | XPush _ _ _ => 47 | XUnl1 _ _ _ => 46 | XUnl2 _ _ => 45
    end%nat.
  (** the attempt succeeds *)
  Definition sure (pc : upc) : bool :=
    match pc with
    | IConB | ICntB | ISetB | IUnlB (Some _) | IConL _ _ | IOffL _ _ | ICntL _ _ | ISetL _ _ | ILinkL _ _ | IUnlL _ (Some _) => true
    | XResetB _ | XCntB _ | XDesB _ | XUnlB _ true | XTest _ _ | XAdd1 _ _ | XAdd2 _ _ _ | XPut _ _ _ | XReset _ _ | XCnt _ _ | XDes _ _ | XPush _ _ _ | XUnl1 _ _ true | XUnl2 _ true => true
    | _ => false
    end.
  Definition goes i s t : Prop := returns i s t \/ (sure (c_pc t) = false /\ retries i s t) \/
    exists s' pc', solo i (s, t) (s', cgo t pc') /\ (rank pc' < rank (c_pc t))%nat /\ (sure (c_pc t) = true -> sure pc' = true).
  Lemma cgo_pc t pc : c_pc t = pc -> cgo t pc = t. Proof. intros <-. destruct t; reflexivity. Qed.
  Ltac fini := left; eexists _, _, _, _; split; [eassumption|first [eassumption|apply solo_one; eassumption]].
  Ltac retry := right; left; split; [reflexivity|]; eexists _, _, _; split; [eassumption|]; split; [|first [eassumption|apply solo_one; eassumption]].
  Ltac lower := right; right; eexists _, _; split; [first [eassumption|apply solo_one; eassumption]|]; split; [cbn; lia|]; try discriminate; try reflexivity; try (intros _; reflexivity).
  Lemma advance s ls i t op rest : good s ls -> ls !! i = Some t -> c_prog t = op :: rest -> others ls i no_vec -> goes i s t.
  Proof using HP.
    intros Hg Hi Ep Ho. destruct (good_kn s ls i t op rest Hg Hi Ep) as [C Hk]. pose proof (GL pos_walkable s ls i t) as Hw. pose proof (vec_alone s ls i t Hg Hi) as Hva. unfold no_vec at 1 in Hva.
    assert (Ha : at_call t op (bkt (op_key kf op))) by (split; [eauto|apply Eb]).
    destruct (GL good_step s ls i t Hg Hi) as (s' & t' & Hs & _); [congruence|]. pose proof Hs as Hs0. unfold estep, ustep in Hs0. rewrite Ep, Eb in Hs0.
    assert (Hfind : forall c j, walking (c_pc t) c j -> (c_pc t = FVal c j -> exists v, c_values s !! j = Some (Some v)) -> pos (c_pc t) = Some j -> frank c = rank (c_pc t) -> sure (c_pc t) = false -> goes i s t).
    { intros c j Hwk Hv Hp Hr Hsu. destruct (finds_any kf hash keq bc E step Hst i s t _ _ c j (Hw j Hg Hi Hp) Ha Hwk Hv) as [r HR]. unfold goes. rewrite <- Hr, Hsu. destruct c; cbn [after_find frank] in HR |- *.
      - fini.
      - destruct r; [fini|lower].
      - destruct r; lower.
      - destruct r; [lower|]. case_bool_decide; lower.
      - destruct r; [|fini]. case_bool_decide; lower.
      - case_bool_decide; lower.
      - lower. }
    destruct (c_pc t) as [| | |c j|c j|c j|c j|c j|c j|c j pr|c j pr| | | | | | |r|e|e q|e p|e p|e p|e p|e p|e r|p|p|p|p|p ok|p q|p q|p|p q|p q|p q o|p q o|p q|p q|p q|p q x|p q ok|q ok] eqn:Epc; cbn [UOneDefs.kn pos] in Hk, Hw;
      try (apply (Hfind c j); [first [left; reflexivity|right; left; reflexivity|right; right; left; reflexivity|right; right; right; reflexivity]|try discriminate|reflexivity|reflexivity|reflexivity]; intros _; destruct Hk as (_ & _ & Hk & _); exact Hk);
      clear Hfind; unfold goes; rewrite Epc.
    - destruct op; injection Hs0 as <- <-; [retry; exact (fun x => x)|retry; exact (fun x => x)|lower].
    - right; left. split; [reflexivity|]. exists s, op, rest. split; [exact Ep|]. destruct op; try contradiction. split; [exact (fun x => x)|]. cbn [again]. rewrite (cgo_pc t _ Epc). apply rtc_refl.
    - destruct (clamp_size _ _ =? 0); injection Hs0 as <- <-; [fini|lower].
    - destruct (ends_any kf hash keq bc E step Hst i s t _ _ c j (Hw j Hg Hi eq_refl) Ha ltac:(left; exact Epc)) as (e' & HR & _). destruct c; cbn [after_end] in HR; lower.
    - destruct (ends_any kf hash keq bc E step Hst i s t _ _ c j (Hw j Hg Hi eq_refl) Ha ltac:(right; exact Epc)) as (e' & HR & _). destruct c; cbn [after_end] in HR; lower.
    - destruct Hk as (_ & -> & _). destruct (prevs_any kf hash keq bc E step Hst i s t _ _ c j j (Hw j Hg Hi eq_refl) Ha (Hw j Hg Hi eq_refl) ltac:(left; exact Epc)) as (q' & HR & _). destruct c; cbn [after_prev] in HR; [lower|]. destruct (_ && _); lower.
    - destruct Hk as (_ & -> & _). destruct (prevs_any kf hash keq bc E step Hst i s t _ _ c j j (Hw j Hg Hi eq_refl) Ha (Hw j Hg Hi eq_refl) ltac:(right; exact Epc)) as (q' & HR & _). destruct c; cbn [after_prev] in HR; [lower|]. destruct (_ && _); lower.
    - repeat case_match; try discriminate; injection Hs0 as <- <-; lower.
    - repeat case_match; try discriminate; injection Hs0 as <- <-; [retry; destruct op; try contradiction; exact (fun x => x)|lower].
    - repeat case_match; try discriminate; injection Hs0 as <- <-; lower.
    - repeat case_match; try discriminate; injection Hs0 as <- <-; lower.
    - injection Hs0 as <- <-; lower.
    - repeat case_match; try discriminate; injection Hs0 as <- <-; lower.
    - destruct (c_locks s !! _); [|discriminate]. destruct r; injection Hs0 as <- <-; [fini|retry]. destruct op; try contradiction; exact (fun x => x).
    - repeat case_match; try discriminate; injection Hs0 as <- <-; [retry; destruct op, Hk; try contradiction; exact (fun x => x)|lower].
    - destruct (Hva (fun x => x) Ho) as (s1 & pc1 & HR & He). cbn [vend] in He. destruct He as [[p ->]|[-> _]]; lower.
    - repeat case_match; try discriminate; injection Hs0 as <- <-; lower.
    - repeat case_match; try discriminate; injection Hs0 as <- <-; lower.
    - injection Hs0 as <- <-; lower.
    - repeat case_match; try discriminate; injection Hs0 as <- <-; lower.
    - repeat case_match; try discriminate; injection Hs0 as <- <-; lower.
    - destruct (c_locks s !! _); [|discriminate]. destruct r; injection Hs0 as <- <-; [fini|retry]. destruct op, Hk; try contradiction; exact (fun x => x).
    - repeat case_match; try discriminate; injection Hs0 as <- <-; [retry; destruct op, Hk; try contradiction; exact (fun x => x)|lower].
    - repeat case_match; try discriminate; injection Hs0 as <- <-; lower.
    - injection Hs0 as <- <-; lower.
    - repeat case_match; try discriminate; injection Hs0 as <- <-; lower.
    - destruct (c_locks s !! _); [|discriminate]. destruct ok; injection Hs0 as <- <-; [fini|retry]. destruct op, Hk; try contradiction; exact (fun x => x).
    - repeat case_match; try discriminate; injection Hs0 as <- <-; [retry; destruct op, Hk; try contradiction; exact (fun x => x)|lower].
    - repeat case_match; try discriminate; injection Hs0 as <- <-; lower.
    - destruct (c_locks s !! _); [|discriminate]. injection Hs0 as <- <-; retry. destruct op, Hk; try contradiction; exact (fun x => x).
    - destruct (c_off s !! _); [|discriminate]. destruct (_ =? _); injection Hs0 as <- <-; lower.
    - repeat case_match; try discriminate; injection Hs0 as <- <-; lower.
    - repeat case_match; try discriminate; injection Hs0 as <- <-; lower.
    - repeat case_match; try discriminate; injection Hs0 as <- <-; lower.
    - repeat case_match; try discriminate; injection Hs0 as <- <-; lower.
    - injection Hs0 as <- <-; lower.
    - repeat case_match; try discriminate; injection Hs0 as <- <-; lower.
    - destruct (Hva (fun x => x) Ho) as (s1 & pc1 & HR & He). cbn [vend] in He. subst pc1. lower.
    - destruct (c_locks s !! _); [|discriminate]. injection Hs0 as <- <-. destruct ok; lower.
    - destruct (c_locks s !! _); [|discriminate]. destruct ok; injection Hs0 as <- <-; [fini|retry]. destruct op, Hk; try contradiction; exact (fun x => x).
  Qed.
  Lemma reached s ls i t s' t' : good s ls -> ls !! i = Some t -> solo i (s, t) (s', t') -> good s' (<[i := t']> ls) /\ <[i := t']> ls !! i = Some t'.
  Proof using HP.
    intros Hg Hi R. split; [eapply (GL good_reach); [exact Hg|]; eapply solo_reach; [exact R|exact Hi]|]. apply list_lookup_insert. eapply lookup_lt_Some. exact Hi.
  Qed.
  (** the attempt of a thread ends when it runs alone *)
  Lemma attempt_ends m : forall s ls i t op rest, (rank (c_pc t) <= m)%nat -> good s ls -> ls !! i = Some t -> c_prog t = op :: rest -> others ls i no_vec ->
    returns i s t \/ (sure (c_pc t) = false /\ retries i s t).
  Proof using HP.
    induction m as [|m IH]; intros s ls i t op rest Hm Hg Hi Ep Ho; (destruct (advance s ls i t op rest Hg Hi Ep Ho) as [H|[H|(s' & pc' & R & Hr & Hsu)]]; [left; exact H|right; exact H|]); [lia|].
    destruct (reached s ls i t s' _ Hg Hi R) as [Hg' Hi']. destruct (IH s' (<[i := cgo t pc']> ls) i (cgo t pc') op rest) as [H|[H1 H2]]; [cbn; lia|exact Hg'|exact Hi'|exact Ep|apply others_insert, Ho| |].
    - left. eapply returns_trans; [exact R|exact H].
    - right. split; [|eapply retries_trans; [exact R|exact H2]]. destruct (sure (c_pc t)); [|reflexivity]. cbn in H1. rewrite Hsu in H1 by reflexivity. discriminate.
  Qed.
  Lemma over s ls i t op rest : good s ls -> ls !! i = Some t -> c_prog t = op :: rest -> others ls i no_vec -> returns i s t \/ retries i s t.
  Proof using HP. intros Hg Hi Ep Ho. destruct (attempt_ends _ s ls i t op rest (le_n _) Hg Hi Ep Ho) as [H|[_ H]]; auto. Qed.
  Lemma sure_returns s ls i t pc s1 op rest : good s ls -> ls !! i = Some t -> c_prog t = op :: rest -> others ls i no_vec -> solo i (s, t) (s1, cgo t pc) -> sure pc = true -> returns i s t.
  Proof using HP.
    intros Hg Hi Ep Ho R Hsu. destruct (reached s ls i t s1 _ Hg Hi R) as [Hg' Hi']. eapply returns_trans; [exact R|].
    destruct (attempt_ends _ s1 (<[i := cgo t pc]> ls) i (cgo t pc) op rest (le_n _) Hg' Hi' Ep (others_insert _ _ _ _ Ho)) as [H|[H _]]; [exact H|]. cbn in H. congruence.
  Qed.

  (** *** no other thread holds a lock *)
  Notation free := (fun t => heldt t = []).
  Lemma free_no_vec t : heldt t = [] -> no_vec t.
  Proof. unfold UOneDefs.heldt, no_vec. destruct (c_pc t); cbn [held]; try discriminate; intros _; exact Logic.I. Qed.
  Lemma others_free ls i : others ls i free -> others ls i no_vec.
  Proof. intros H j tj Hne Hj. apply free_no_vec. eapply H; eauto. Qed.
  Lemma free_lock s ls i t p : good s ls -> ls !! i = Some t -> others ls i free -> heldt t = [] -> (p < n)%nat -> c_locks s !! p = Some false.
  Proof.
    intros [(C & F & X & R & I) _] Hi Ho Hl Hp. destruct (FL f_lock s ls C F X R I p Hp) as [o Eo]. pose proof (o_lock _ _ _ _ _ _ _ _ _ _ _ _ _ I p) as H. rewrite sumZ_zero in H.
    - unfold SlotProofs.lk in H. rewrite Eo in H. destruct o; [discriminate|exact Eo].
    - intros t' Ht'. apply elem_of_list_lookup in Ht' as [j Hj]. destruct (decide (j = i)) as [-> |Hne].
      + assert (t' = t) as -> by congruence. rewrite Hl. reflexivity.
      + rewrite (Ho j t' Hne Hj). reflexivity.
  Qed.
  Lemma walkable_range s ls j : good s ls -> walkable s j -> (j < n)%nat.
  Proof. intros [(C & F & X & R & I) _] W. destruct (walkable_occ s j W) as [o Ho]. apply lookup_lt_Some in Ho. destruct (o_len _ _ _ _ _ _ _ _ _ _ _ _ _ I) as (_ & _ & L & _). lia. Qed.
  Ltac st Ep := unfold estep, ustep; cbn [cgo c_pc c_prog]; rewrite Ep; cbn [op_key]; rewrite Eb.

  (** from the head of the loop: erase() *)
  Lemma erase_fresh s ls i t k rest : good s ls -> ls !! i = Some t -> c_prog t = CErase k :: rest -> others ls i free -> c_pc t = FOcc FEr1 (bkt k) -> returns i s t.
  Proof using HP.
    intros Hg Hi Ep Ho Epc. set (b := bkt k). assert (Hfree : forall p, (p < n)%nat -> c_locks s !! p = Some false) by (intros p Hp; exact (free_lock s ls i t p Hg Hi Ho ltac:(unfold UOneDefs.heldt; rewrite Epc; reflexivity) Hp)).
    pose proof (GL bucket_walkable s ls k Hg) as W. assert (Ha : at_call t (CErase k) b) by (split; [eauto|apply Eb]). pose proof (others_free ls i Ho) as Hov.
    destruct (finds_ex kf hash keq bc E step Hst s k b W) as (r & Hr & Hh).
    assert (R1 : solo i (s, t) (s, after_find t (CErase k) b FEr1 r)).
    { pose proof (Hr i s t (CErase k) b FEr1 (same_refl s) Ha eq_refl) as R. unfold b in R. rewrite (cgo_pc t _ Epc) in R. exact R. }
    destruct r as [p|]; cbn [after_find] in R1; [|eexists _, _, _, _; split; [exact Ep|exact R1]].
    destruct (Hh p eq_refl) as [Wp _]. pose proof (walkable_range s ls p Hg Wp) as Hpn.
    destruct (decide (p = b)) as [-> |Hne].
    - rewrite bool_decide_true in R1 by reflexivity. set (s1 := put_lock s b true).
      assert (R2 : solo i (s, t) (s1, cgo t (XResetB b))).
      { eapply solo_trans; [exact R1|]. eapply solo_step; [st Ep; rewrite (Hfree b Hpn); reflexivity|]. fold s1.
        pose proof (Hr i s1 t (CErase k) b (FErB b) (same_lock s b true) Ha eq_refl) as R. cbn [after_find] in R. rewrite bool_decide_true in R by reflexivity. exact R. }
      exact (sure_returns s ls i t _ s1 _ _ Hg Hi Ep Hov R2 eq_refl).
    - rewrite bool_decide_false in R1 by exact Hne. destruct (prevs_ex kf hash keq bc E step Hst s p b W ltac:(congruence)) as (q & Hq & Wq & Hqp).
      pose proof (walkable_range s ls q Hg Wq) as Hqn. set (s1 := put_lock s p true). set (s2 := put_lock s1 q true).
      assert (Hsame : same_lists s s2) by (repeat split).
      assert (Hl2 : c_locks s1 !! q = Some false) by (cbn; rewrite list_lookup_insert_ne by congruence; exact (Hfree q Hqn)).
      assert (R2 : solo i (s, t) (s2, cgo t (XTest p q))).
      { eapply solo_trans; [exact R1|]. eapply solo_trans; [apply (Hq i s t (CErase k) b (PEr1 p) (same_refl s) Ha eq_refl)|]. cbn [after_prev].
        eapply solo_step; [st Ep; rewrite (Hfree p Hpn); reflexivity|]. fold s1.
        eapply solo_step; [st Ep; rewrite Hl2; reflexivity|]. fold s2.
        eapply solo_trans; [apply (Hr i s2 t (CErase k) b (FErL p q) Hsame Ha eq_refl)|]. cbn [after_find]. rewrite bool_decide_true by reflexivity.
        eapply solo_trans; [apply (Hq i s2 t (CErase k) b (PEr2 p q true) Hsame Ha eq_refl)|]. cbn [after_prev]. rewrite bool_decide_true by reflexivity. apply rtc_refl. }
      exact (sure_returns s ls i t _ s2 _ _ Hg Hi Ep Hov R2 eq_refl).
  Qed.
  (** ... insert(): every attempt that finds no free entry leaves a smaller number of free entries *)
  Lemma insert_full s t i v rest : c_prog t = CInsert v :: rest -> c_pc t = UFullCheck -> clamp_size (Z.of_nat E) (q_c (c_ex s)) = 0 -> returns i s t.
  Proof using HP.
    intros Ep Epc Hz. destruct (c_count s =? Z.of_nat (length (c_occ s))) eqn:Ef.
    - eexists _, _, _, _. split; [exact Ep|]. apply solo_one. rewrite <- (cgo_pc t _ Epc) at 1. st Ep. rewrite Ef. reflexivity.
    - assert (R1 : solo i (s, t) (s, cgo t UEmptyCheck)) by (apply solo_one; rewrite <- (cgo_pc t _ Epc) at 1; st Ep; rewrite Ef; reflexivity).
      eexists _, _, _, _. split; [exact Ep|]. eapply solo_trans; [exact R1|]. apply solo_one. st Ep. rewrite Hz. reflexivity.
  Qed.
  Lemma insert_fresh m : forall s ls i t v rest, (Z.to_nat (q_c (c_ex s)) <= m)%nat -> good s ls -> ls !! i = Some t -> c_prog t = CInsert v :: rest -> others ls i free -> c_pc t = UFullCheck -> returns i s t.
  Proof using HP.
    induction m as [|m IH]; intros s ls i t v rest Hm Hg Hi Ep Ho Epc.
    { apply (insert_full s t i v rest Ep Epc). unfold clamp_size. destruct (Z.ltb_spec (q_c (c_ex s)) 0); [reflexivity|]. assert (q_c (c_ex s) = 0) as -> by lia. destruct (Z.of_nat E <? 0) eqn:Ez; [lia|reflexivity]. }
    set (b := bkt (kf v)). assert (Hfree : forall p, (p < n)%nat -> c_locks s !! p = Some false) by (intros p Hp; exact (free_lock s ls i t p Hg Hi Ho ltac:(unfold UOneDefs.heldt; rewrite Epc; reflexivity) Hp)).
    assert (Hbn : (b < n)%nat) by (pose proof (Hb (kf v)); unfold b; lia).
    pose proof (GL bucket_walkable s ls (kf v) Hg) as W. assert (Ha : at_call t (CInsert v) b) by (split; [eauto|apply Eb]). pose proof (others_free ls i Ho) as Hov.
    destruct (finds_ex kf hash keq bc E step Hst s (kf v) b W) as (r & Hr & _). destruct (ends_ex kf hash keq bc E step Hst s b W) as (e & He & We). pose proof (walkable_range s ls e Hg We) as Hen.
    destruct (clamp_size (Z.of_nat E) (q_c (c_ex s)) =? 0) eqn:Ez; [apply (insert_full s t i v rest Ep Epc); lia|].
    destruct (c_count s =? Z.of_nat (length (c_occ s))) eqn:Ef.
    { eexists _, _, _, _. split; [exact Ep|]. apply solo_one. rewrite <- (cgo_pc t _ Epc) at 1. st Ep. rewrite Ef. reflexivity. }
    assert (R2 : solo i (s, t) (s, after_find t (CInsert v) b FIns1 r)).
    { eapply (solo_step _ _ _ _ s (cgo t UEmptyCheck)); [rewrite <- (cgo_pc t _ Epc) at 1; st Ep; rewrite Ef; reflexivity|]. eapply solo_step; [st Ep; rewrite Ez; reflexivity|]. apply (Hr i s t (CInsert v) b FIns1); [apply same_refl|exact Ha|reflexivity]. }
    destruct r as [p|]; cbn [after_find] in R2; [eexists _, _, _, _; split; [exact Ep|exact R2]|].
    assert (Hocc : exists o : bool, c_occ s !! b = Some o) by (destruct Hg as [(C & F & X & R & I) _]; exact (FL f_occ s ls C F X R I b Hbn)). destruct Hocc as [[] Eo].
    - set (s1 := put_lock s e true).
      assert (R3 : solo i (s, t) (s1, cgo t (IPop e pop_call))).
      { eapply solo_trans; [exact R2|]. eapply solo_step; [st Ep; fold b; rewrite Eo; reflexivity|]. eapply solo_trans; [apply (He i s t (CInsert v) b EIns1); [apply same_refl|exact Ha]|]. cbn [after_end].
        eapply solo_step; [st Ep; rewrite (Hfree e Hen); reflexivity|]. fold s1. eapply solo_trans; [apply (He i s1 t (CInsert v) b (EIns2 e)); [apply same_lock|exact Ha]|]. cbn [after_end].
        eapply solo_trans; [apply (Hr i s1 t (CInsert v) b (FInsL e e)); [apply same_lock|exact Ha|reflexivity]|]. cbn [after_find]. rewrite bool_decide_true by reflexivity. apply rtc_refl. }
      destruct (reached s ls i t s1 _ Hg Hi R3) as [Hg1 Hi1].
      destruct (vec_alone s1 _ i _ Hg1 Hi1 (fun x => x) (others_insert _ _ _ _ Hov)) as (s2 & pc' & R4 & Hc). cbn [vend cgo c_pc] in Hc.
      assert (R5 : solo i (s, t) (s2, cgo t pc')) by (eapply solo_trans; [exact R3|exact R4]). destruct Hc as [[p ->]|[-> Hz]]; [exact (sure_returns s ls i t _ s2 _ _ Hg Hi Ep Hov R5 eq_refl)|].
      destruct (reached s ls i t s2 _ Hg Hi R5) as [Hg2 Hi2].
      assert (Hl2 : exists o, c_locks s2 !! e = Some o) by (destruct Hg2 as [(C & F & X & R & I) _]; exact (FL f_lock s2 _ C F X R I e Hen)). destruct Hl2 as [o2 El2].
      assert (R6 : solo i (s, t) (put_lock s2 e false, cgo t UFullCheck)) by (eapply solo_trans; [exact R5|]; apply solo_one; st Ep; rewrite El2; reflexivity).
      destruct (reached s ls i t _ _ Hg Hi R6) as [Hg3 Hi3]. eapply returns_trans; [exact R6|]. destruct Hz as [Hz|Hz]; [exact (insert_full (put_lock s2 e false) (cgo t UFullCheck) i v rest Ep eq_refl Hz)|].
      eapply (IH _ _ i (cgo t UFullCheck) v rest); [|exact Hg3|exact Hi3|exact Ep|apply others_insert, Ho|reflexivity]. cbn [put_lock c_ex] in Hz |- *. unfold s1 in Hz. cbn [put_lock c_ex] in Hz.
      assert (0 < q_c (c_ex s)) by (unfold clamp_size in Ez; destruct (Z.ltb_spec (q_c (c_ex s)) 0); [discriminate|]; destruct (decide (q_c (c_ex s) = 0)) as [E0|]; [rewrite E0 in Ez; destruct (Z.of_nat E <? 0) eqn:E9; [lia|discriminate]|lia]). lia.
    - set (s1 := put_lock s b true).
      assert (R3 : solo i (s, t) (s1, cgo t IConB)).
      { eapply solo_trans; [exact R2|]. eapply solo_step; [st Ep; fold b; rewrite Eo; reflexivity|]. eapply solo_step; [st Ep; fold b; rewrite (Hfree b Hbn); reflexivity|]. fold s1.
        eapply solo_trans; [apply (Hr i s1 t (CInsert v) b FInsB); [apply same_lock|exact Ha|reflexivity]|]. cbn [after_find]. apply solo_one. st Ep. fold b. change (c_occ s1) with (c_occ s). rewrite Eo. reflexivity. }
      exact (sure_returns s ls i t _ s1 _ _ Hg Hi Ep Hov R3 eq_refl).
  Qed.
  (** *** all calls *)
  Lemma call_returns s ls i t : good s ls -> ls !! i = Some t -> others ls i free -> c_prog t <> [] -> returns i s t.
  Proof using HP.
    intros Hg Hi Ho Hne. destruct (c_prog t) as [|op rest] eqn:Ep; [congruence|]. destruct (over s ls i t op rest Hg Hi Ep (others_free ls i Ho)) as [H|(s' & op' & rest' & Ep' & Hf & R)]; [exact H|].
    rewrite Ep in Ep'. injection Ep' as <- <-. destruct op as [v|k|k]; [| |destruct (Hf Logic.I)]; cbn [again op_key] in R; destruct (reached s ls i t s' _ Hg Hi R) as [Hg' Hi']; (eapply returns_trans; [exact R|]).
    - eapply (insert_fresh _ s' _ i _ v rest (le_n _) Hg' Hi' Ep (others_insert _ _ _ _ Ho)). reflexivity.
    - eapply (erase_fresh s' _ i _ k rest Hg' Hi' Ep (others_insert _ _ _ _ Ho)). reflexivity.
  Qed.
  Lemma all_free s ls : good s ls -> (forall t, t ∈ ls -> no_vec t) -> exists s' ls', Conc.reach step (s, ls) (s', ls') /\ good s' ls' /\ forall t, t ∈ ls' -> heldt t = [].
  Proof using HP.
    intros Hg Hn. destruct (one_by_one step (fun s ls => good s ls /\ forall t, t ∈ ls -> no_vec t) (fun t => heldt t = [])) with (s := s) (ls := ls) as (s' & ls' & R & [I' _] & Q); [|auto|eauto].
    clear s ls Hg Hn. intros s ls i t [Hg Hn] Hi. destruct (c_prog t) as [|op rest] eqn:Ep.
    - exists s, t. rewrite list_insert_id by exact Hi. split; [apply rtc_refl|]. split; [auto|]. unfold UOneDefs.heldt. rewrite (good_idle kf hash keq bc E ie M0 s ls i t Hg Hi Ep). reflexivity.
    - assert (Hex : exists s' t', solo i (s, t) (s', t') /\ heldt t' = []).
      { destruct (over s ls i t op rest Hg Hi Ep) as [(s' & op' & r & rest' & _ & R)|(s' & op' & rest' & _ & _ & R)]; [intros j tj _ Hj; apply Hn; eapply elem_of_list_lookup_2; exact Hj| |].
        - exists s', (cfinish t op' r). split; [exact R|reflexivity].
        - eexists _, _. split; [exact R|]. destruct op'; reflexivity. }
      destruct Hex as (s' & t' & R & Hl). pose proof (solo_reach _ _ _ _ _ _ _ R Hi) as RR. exists s', t'. split; [exact RR|]. split; [|exact Hl]. split; [eapply (GL good_reach); [exact Hg|exact RR]|].
      intros t0 Ht0. apply elem_of_list_lookup in Ht0 as [j Hj]. apply list_lookup_insert_Some in Hj as [(_ & <- & _)|[_ Hj]]; [apply free_no_vec; exact Hl|apply Hn; eapply elem_of_list_lookup_2; exact Hj].
  Qed.
  Lemma all_return m : forall s ls, sumZ (fun t => Z.of_nat (length (c_prog t))) ls <= Z.of_nat m -> good s ls -> (forall t, t ∈ ls -> heldt t = []) ->
    exists s' ls', Conc.reach step (s, ls) (s', ls') /\ all_returned ls'.
  Proof using HP.
    induction m as [|m IH]; intros s ls Hm Hg Hf.
    - exists s, ls. split; [apply rtc_refl|]. intros t Ht. assert (Ep : c_prog t = []).
      { pose proof Ht as Ht'. apply elem_of_list_lookup in Ht' as [j Hj]. pose proof (sumZ_ge_elem (fun t => Z.of_nat (length (c_prog t))) ls j t ltac:(intros; apply Nat2Z.is_nonneg) Hj) as H. cbn beta in H. destruct (c_prog t); [reflexivity|]. cbn [length] in H. lia. }
      split; [exact Ep|]. apply elem_of_list_lookup in Ht as [j Hj]. exact (good_idle kf hash keq bc E ie M0 s ls j t Hg Hj Ep).
    - destruct (decide (Exists (fun t => c_prog t <> []) ls)) as [Hex|Hnx].
      + apply Exists_exists in Hex as (t & Ht & Hne). apply elem_of_list_lookup in Ht as [i Hi].
        destruct (call_returns s ls i t Hg Hi) as (s' & op & r & rest & Ep & R); [intros j tj _ Hj; apply Hf; eapply elem_of_list_lookup_2; exact Hj|exact Hne|].
        pose proof (solo_reach _ _ _ _ _ _ _ R Hi) as RR.
        destruct (IH s' (<[i := cfinish t op r]> ls)) as (s2 & ls2 & R2 & A2).
        { rewrite (sumZ_insert _ _ _ _ _ Hi). cbn [cfinish c_prog]. rewrite Ep. cbn [tail length]. lia. }
        { eapply (GL good_reach); [exact Hg|exact RR]. }
        { intros t0 Ht0. apply elem_of_list_lookup in Ht0 as [j Hj]. apply list_lookup_insert_Some in Hj as [(_ & <- & _)|[_ Hj]]; [reflexivity|apply Hf; eapply elem_of_list_lookup_2; exact Hj]. }
        exists s2, ls2. split; [etrans; [exact RR|exact R2]|exact A2].
      + exists s, ls. split; [apply rtc_refl|]. intros t Ht. assert (Ep : c_prog t = []).
        { destruct (c_prog t) eqn:Ep; [reflexivity|]. exfalso. apply Hnx. apply Exists_exists. exists t. split; [exact Ht|congruence]. }
        split; [exact Ep|]. apply elem_of_list_lookup in Ht as [j Hj]. exact (good_idle kf hash keq bc E ie M0 s ls j t Hg Hj Ep).
  Qed.
  Lemma one_complete s ls : good s ls -> exists s' ls', Conc.reach step (s, ls) (s', ls') /\ all_returned ls'.
  Proof using HP.
    intros Hg. destruct (vec_complete s ls Hg) as (s1 & ls1 & R1 & I1 & Hn).
    destruct (all_free s1 ls1 I1 Hn) as (s2 & ls2 & R2 & Hg2 & Hf).
    destruct (all_return (Z.to_nat (sumZ (fun t => Z.of_nat (length (c_prog t))) ls2)) s2 ls2) as (s3 & ls3 & R3 & A3); [lia|exact Hg2|exact Hf|].
    exists s3, ls3. split; [|exact A3]. etrans; [exact R1|]. etrans; [exact R2|exact R3].
  Qed.
  Lemma one_alone s ls i t : good s ls -> ls !! i = Some t -> (forall j tj, ls !! j = Some tj -> j <> i -> c_pc tj = UIdle) -> c_prog t <> [] -> returns i s t.
  Proof using HP. intros Hg Hi Hal. apply (call_returns s ls i t Hg Hi). intros j tj Hne Hj. unfold UOneDefs.heldt. rewrite (Hal j tj Hj Hne). reflexivity. Qed.
End prog.
Lemma good_start {K V} (kf : V -> K) hash keq bc E (HP : key_equality keq /\ hash_respects keq hash /\ sizes_ok bc E) s ers (progs : list (list (cop K V))) s' ls' :
  rest bc E s -> one_erases ers progs -> Conc.reach (estep kf hash keq bc E) (s, c_start progs) (s', ls') -> good kf hash keq bc E ers (stored bc E s) s' ls'.
Proof.
  intros R0 Hone HR. destruct (rest_start kf hash keq bc E s ers progs R0 Hone) as (C & F & X & I0). refine (good_reach kf hash keq bc E HP ers _ _ _ _ _ _ HR). split; [exists C, F, X, []; exact I0|].
  intros i t x Hi Hx. destruct (start_facts progs t (elem_of_list_lookup_2 _ _ _ Hi)) as [Epc _]. rewrite Epc in Hx. discriminate.
Qed.
