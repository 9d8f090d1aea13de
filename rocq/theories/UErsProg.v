(** Concurrent erases and lookups on the unordered containers can always complete. *)
From Verif Require Import Base Conc SlotModel SlotSpec SlotProofs VectorModel VectorProofs VectorConcProofs HashProofs UnorderedModel UnorderedSpec UnorderedProofs UConcModel UConcSpec UConcProofs UConcReach UEraseModel UEraseSpec UEraseProofs UEraseFinal UProgSpec UWalk.

Section ersprog.
  Context {K V : Type} (kf : V -> K) (hash : K -> Z) (keq : K -> K -> bool) (bc E : nat).
  Hypothesis keq_refl : forall a, keq a a = true.
  Hypothesis keq_sym : forall a b, keq a b = true -> keq b a = true.
  Hypothesis keq_trans : forall a b c, keq a b = true -> keq b c = true -> keq a c = true.
  Hypothesis Hhash : forall a b, keq a b = true -> hash a = hash b.
  Hypothesis Hbc : (0 < bc)%nat.
  Hypothesis HE : (0 < E)%nat.
  Hypothesis Hmax : Z.of_nat (bc + E) <= INT_MAX.
  Notation n := (bc + E)%nat.
  Notation bkt := (bkt hash bc).
  Implicit Types (s : cshared V) (t : cthread K V) (ls : list (cthread K V)) (F Gn : list nat).
  Context (M0 : list V) (s0 : cshared V) (G0 : list (option V * list (nat * V))) (F0 : list nat).
  Hypothesis I0 : cinv (K:=K) kf hash keq bc E M0 s0 [] G0 F0.
  Notation A f := (f kf hash keq bc E keq_refl keq_sym keq_trans Hhash Hbc HE Hmax M0 s0 G0 F0 I0).
  Notation einv := (einv kf hash keq bc E s0 G0 F0).
  Notation kn := (kn kf keq s0 G0).
  Notation nodes := (nodes G0).
  Notation step := (estep kf hash keq bc E).
  Notation at_call := (at_call kf hash bc).
  Notation solo := (solo step).
  Let Hst : forall i s t, no_destroy (c_pc t) -> step i s t = ustep kf hash keq bc E i s t.
  Proof. intros i s t H. unfold estep. destruct (c_pc t); try reflexivity; destruct H. Qed.
  Let Eb k : bucket_of hash bc k = Some (bkt k). Proof using All. apply (bucket_of_bkt hash keq bc E keq_refl keq_sym keq_trans Hhash Hbc HE Hmax). Qed.
  Let Hb k : (bkt k < bc)%nat. Proof using All. apply (bucket_of_bkt hash keq bc E keq_refl keq_sym keq_trans Hhash Hbc HE Hmax). Qed.

  Definition good s ls : Prop := exists Gn F, einv s ls Gn F.
  Lemma good_reach s ls s' ls' : good s ls -> Conc.reach step (s, ls) (s', ls') -> good s' ls'.
  Proof using All. intros (Gn & F & I) R. destruct (A reach_einv s ls Gn F s' ls' I R) as (Gn' & F' & I' & _). exists Gn', F'. exact I'. Qed.

  Lemma walk_node s ls j b : good s ls -> (b < bc)%nat -> j ∈ nodes b -> walkable s j.
  Proof using All.
    intros (Gn & F & I) Hbb Hj. apply elem_of_list_lookup in Hj as [a Ha].
    assert (HW : forall m a j, (length (nodes b) - a <= m)%nat -> nodes b !! a = Some j -> walkable s j); [|eapply HW; [apply le_n|exact Ha]].
    clear j a Ha. induction m as [|m IH]; intros a j Hm Ha; [apply lookup_lt_Some in Ha; lia|].
    assert (Hjn : (j < n)%nat) by (exact (A nodes_range b j Hbb (elem_of_list_lookup_2 _ _ _ Ha))).
    destruct (lookup_lt_is_Some_2 (c_occ s) j) as [o Ho]; [rewrite (ei_lo _ _ _ _ _ _ _ _ _ _ _ _ I); exact Hjn|].
    assert (Hv : o = true -> exists v, c_values s !! j = Some (Some v)).
    { intros ->. destruct (ei_occ _ _ _ _ _ _ _ _ _ _ _ _ I j) as [v Hv]; [unfold lk; rewrite Ho; reflexivity|]. exists v. rewrite (ei_val _ _ _ _ _ _ _ _ _ _ _ _ I). apply Hv. }
    destruct (ei_next _ _ _ _ _ _ _ _ _ _ _ _ I b a j Hbb Ha) as (z & Hz & [[-> _]|(a' & j' & Hlt & Hj' & Ez & _)]); [eapply WEnd; eauto|].
    destruct (decide (z = 0)) as [-> |Hne]; [eapply WEnd; eauto|].
    apply (WNext s j o z j'); [exact Ho|exact Hv|exact Hz|exact Hne| |].
    - unfold next_entry. rewrite (proj2 (Z.leb_le _ _)) by lia. f_equal. lia.
    - apply (IH a' j'); [|exact Hj']. apply lookup_lt_Some in Ha. lia.
  Qed.
  Lemma bucket_node b : b ∈ nodes b. Proof. eapply elem_of_list_lookup_2. apply nodes_head. Qed.

  (** the call of thread t returns / the attempt ends and the loop is entered again *)
  Definition returns i s t : Prop := exists s' op r rest, c_prog t = op :: rest /\ solo i (s, t) (s', cfinish t op r).
  Definition retries i s t : Prop := exists s' k rest, c_prog t = CErase k :: rest /\ solo i (s, t) (s', cgo t (FOcc FEr1 (bkt k))).
  Definition over i s t : Prop := returns i s t \/ retries i s t.
  Lemma returns_trans i s t s' pc : solo i (s, t) (s', cgo t pc) -> returns i s' (cgo t pc) -> returns i s t.
  Proof. intros H (s2 & op & r & rest & Ep & R). exists s2, op, r, rest. split; [exact Ep|]. eapply solo_trans; [exact H|exact R]. Qed.
  Lemma over_trans i s t s' pc : solo i (s, t) (s', cgo t pc) -> over i s' (cgo t pc) -> over i s t.
  Proof.
    intros H [R|(s2 & k & rest & Ep & R)]; [left; eapply returns_trans; eauto|]. right. exists s2, k, rest. split; [exact Ep|]. eapply solo_trans; [exact H|exact R].
  Qed.
  Lemma cgo_pc t pc : c_pc t = pc -> cgo t pc = t. Proof. intros <-. destruct t; reflexivity. Qed.
  Definition others ls i (P : cthread K V -> Prop) : Prop := forall j tj, j <> i -> ls !! j = Some tj -> P tj.
  Lemma others_insert ls i P t' : others ls i P -> others (<[i := t']> ls) i P.
  Proof. intros H j tj Hne Hj. rewrite list_lookup_insert_ne in Hj by congruence. eapply H; eauto. Qed.
  Lemma via (Q : nat -> cshared V -> cthread K V -> Prop) s ls i t s' pc' : good s ls -> ls !! i = Some t -> solo i (s, t) (s', cgo t pc') ->
    (Q i s' (cgo t pc') -> Q i s t) ->
    (good s' (<[i := cgo t pc']> ls) -> (<[i := cgo t pc']> ls) !! i = Some (cgo t pc') -> Q i s' (cgo t pc')) -> Q i s t.
  Proof using All.
    intros I Hi R HQ H. apply HQ. apply H; [eapply good_reach; [exact I|]; eapply solo_reach; [exact R|exact Hi]|]. apply list_lookup_insert. eapply lookup_lt_Some. exact Hi.
  Qed.
  Lemma over_via s ls i t s' pc' : good s ls -> ls !! i = Some t -> solo i (s, t) (s', cgo t pc') ->
    (good s' (<[i := cgo t pc']> ls) -> (<[i := cgo t pc']> ls) !! i = Some (cgo t pc') -> over i s' (cgo t pc')) -> over i s t.
  Proof using All. intros I Hi R. apply (via over s ls i t s' pc' I Hi R). apply over_trans. exact R. Qed.
  Lemma returns_via s ls i t s' pc' : good s ls -> ls !! i = Some t -> solo i (s, t) (s', cgo t pc') ->
    (good s' (<[i := cgo t pc']> ls) -> (<[i := cgo t pc']> ls) !! i = Some (cgo t pc') -> returns i s' (cgo t pc')) -> returns i s t.
  Proof using All. intros I Hi R. apply (via returns s ls i t s' pc' I Hi R). apply returns_trans. exact R. Qed.
  Lemma moves s ls i t : good s ls -> ls !! i = Some t -> c_prog t <> [] -> exists s' t', step i s t = Some (s', t').
  Proof using All. intros (Gn & F & I) Hi Hne. pose proof (A estep_some s ls Gn F i t I Hi Hne) as H. destruct (step i s t) as [[s' t']|]; [eauto|congruence]. Qed.

  (** *** the push to the excess list *)
  Definition no_push t : Prop := forall p q x, c_pc t <> XPush p q x.
  Lemma no_push_proj t : no_push t -> eproj t = fresh_call [].
  Proof. unfold no_push, eproj. destruct (c_pc t); try reflexivity. intros H. destruct (H p q t0 eq_refl). Qed.
  Lemma push_knows s ls i t p q x : good s ls -> ls !! i = Some t -> c_pc t = XPush p q x -> exists k rest, c_prog t = CErase k :: rest /\ q_prog x = [QPush KPushBack (Z.of_nat p)].
  Proof using All.
    intros (Gn & F & I) Hi Epc. destruct (ei_tk _ _ _ _ _ _ _ _ _ _ _ _ I t (elem_of_list_lookup_2 _ _ _ Hi)) as [_ T]. destruct (c_prog t) as [|op rest]; [congruence|].
    rewrite Epc in T. cbn in T. destruct T as ((He & _) & _ & Eq & _). destruct op; try discriminate. eauto.
  Qed.
  Lemma push_moves s ls i t p q x y x1 : good s ls -> ls !! i = Some t -> c_pc t = XPush p q x -> qstep (vctl E) i (c_ex s) x = Some (y, x1) ->
    step i s t = Some (put_ex s y, cgo t (match q_prog x1 with [] => XUnl1 p q true | _ => XPush p q x1 end)).
  Proof using All.
    intros Hg Hi Epc Hq. destruct (push_knows s ls i t p q x Hg Hi Epc) as (k & rest & Ep & Eq). unfold estep, ustep. rewrite Epc, Ep, Eb, Hq. reflexivity.
  Qed.
  Lemma push_solo s ls i t p q x y' x' : good s ls -> ls !! i = Some t -> c_pc t = XPush p q x -> UProgSpec.solo (qstep (vctl E)) i (c_ex s, x) (y', x') -> q_prog x' = [] ->
    exists s', solo i (s, t) (s', cgo t (XUnl1 p q true)).
  Proof using All.
    intros I Hi Epc R Hd. remember (c_ex s, x) as c eqn:Ec. remember (y', x') as c' eqn:Ec'. revert s ls t x I Hi Epc Ec. induction R as [c|c [y1 x1] c2 Hs R IH]; intros s ls t x I Hi Epc Ec.
    - rewrite Ec in Ec'. injection Ec' as <- <-. destruct (push_knows s ls i t p q x I Hi Epc) as (k & rest & Ep & Eq). congruence.
    - subst c. cbn in Hs. pose proof (push_moves s ls i t p q x y1 x1 I Hi Epc Hs) as Hs1. destruct (q_prog x1) as [|o l] eqn:E1.
      + exists (put_ex s y1). apply solo_one. exact Hs1.
      + destruct (IH Ec' (put_ex s y1) (<[i := cgo t (XPush p q x1)]> ls) (cgo t (XPush p q x1)) x1) as (s' & R').
        { eapply good_reach; [exact I|]. eapply solo_reach; [apply solo_one; exact Hs1|exact Hi]. } { apply list_lookup_insert. eapply lookup_lt_Some. exact Hi. } { reflexivity. } { reflexivity. }
        exists s'. eapply solo_step; [exact Hs1|exact R'].
  Qed.
  Lemma push_alone s ls i t p q x : good s ls -> ls !! i = Some t -> c_pc t = XPush p q x -> others ls i no_push -> exists s', solo i (s, t) (s', cgo t (XUnl1 p q true)).
  Proof using All.
    intros Hg Hi Epc Ho. assert (Hpi : (eproj <$> ls) !! i = Some x) by (rewrite list_lookup_fmap, Hi; cbn; unfold eproj; rewrite Epc; reflexivity).
    pose proof Hg as (Gn & F & I).
    destruct (can_finish (vctl E) E vm (fun _ => True) (vctl_ok E) _ (fun c p _ _ => vm_range c p) _ _ (ei_vec _ _ _ _ _ _ _ _ _ _ _ _ I)) as (x' & qs' & R & Hf).
    destruct (solo_of_reach (qstep (vctl E)) i _ _ _ _ x R Hpi) as (q' & R' & ->).
    { intros j q0 Hne Hj x0. rewrite list_lookup_fmap in Hj. destruct (ls !! j) as [tj|] eqn:Hj'; [|discriminate]. injection Hj as <-. rewrite (no_push_proj tj (Ho j tj Hne Hj')). reflexivity. }
    apply (push_solo s ls i t p q x x' q' Hg Hi Epc R'). apply (Hf q'). eapply elem_of_list_lookup_2. apply list_lookup_insert. eapply lookup_lt_Some. exact Hpi.
  Qed.
  Definition follows t (q : qthread Z) : Prop := eproj t = q \/ (q_prog q = [] /\ no_push t).
  Lemma pushes_complete s ls : good s ls -> exists s' ls', Conc.reach step (s, ls) (s', ls') /\ good s' ls' /\ forall t, t ∈ ls' -> no_push t.
  Proof using All.
    intros Hg. pose proof Hg as (Gn & F & I).
    destruct (can_finish (vctl E) E vm (fun _ => True) (vctl_ok E) _ (fun c p _ _ => vm_range c p) _ _ (ei_vec _ _ _ _ _ _ _ _ _ _ _ _ I)) as (x' & qs' & R & Hf).
    assert (HL : forall c c', Conc.reach (qstep (vctl E)) c c' -> forall s ls, good s ls -> c_ex s = c.1 -> Forall2 follows ls c.2 ->
      exists s' ls', Conc.reach step (s, ls) (s', ls') /\ good s' ls' /\ Forall2 follows ls' c'.2).
    { clear s ls Gn F I Hg x' qs' R Hf. intros c c' R. induction R as [c|c c1 c2 Hs R IH]; intros s ls I Ex HF; [exists s, ls; split; [apply rtc_refl|auto]|].
      inversion Hs as [x qs i q x1 q1 Hi Hq]; subst. cbn [fst snd] in *. destruct (Forall2_lookup_r _ _ _ _ _ HF Hi) as (t & Ht & Hfo).
      assert (Hpop : exists p q', c_pc t = XPush p q' q).
      { destruct Hfo as [Hp|[Hp _]]; [|unfold qstep in Hq; rewrite Hp in Hq; discriminate]. unfold eproj in Hp. destruct (c_pc t) eqn:Epc; subst q; try (unfold qstep in Hq; cbn in Hq; discriminate). eauto. }
      destruct Hpop as (p & q' & Epc). rewrite <- Ex in Hq. pose proof (push_moves s ls i t p q' q x1 q1 I Ht Epc Hq) as Hst1.
      assert (RR : Conc.reach step (s, ls) (put_ex s x1, <[i := cgo t (match q_prog q1 with [] => XUnl1 p q' true | _ => XPush p q' q1 end)]> ls)) by (eapply solo_reach; [apply solo_one; exact Hst1|exact Ht]).
      destruct (IH _ _ (good_reach _ _ _ _ I RR) eq_refl) as (s' & ls' & R' & I2 & H2).
      { apply Forall2_insert; [exact HF|]. destruct (q_prog q1) eqn:E1; [right; split; [exact E1|intros ? ? ? H; discriminate]|left; reflexivity]. }
      exists s', ls'. split; [|auto]. etrans; [exact RR|exact R']. }
    destruct (HL _ _ R s ls Hg eq_refl) as (s' & ls' & R' & I' & HF).
    { cbn [snd]. apply Forall2_fmap_r. apply Forall_Forall2_diag. apply Forall_forall. intros t _. left. reflexivity. }
    exists s', ls'. split; [exact R'|]. split; [exact I'|]. intros t Ht. apply elem_of_list_lookup in Ht as [j Hj]. destruct (Forall2_lookup_l _ _ _ _ _ HF Hj) as (q & Hq & Hfo).
    destruct Hfo as [Hp|[_ Hp]]; [|exact Hp]. intros p q' x Epc. destruct (push_knows s' ls' j t p q' x I' Hj Epc) as (k & rest & _ & Eq).
    unfold eproj in Hp. rewrite Epc in Hp. subst x. destruct (Hf q (elem_of_list_lookup_2 _ _ _ Hq)) as [Hn _]. congruence.
  Qed.

  (** *** attempts *)
  Section attempt.
    Context (i : nat) (k : K) (rest : list (cop K V)).
    Notation b := (bkt k).
    (** the step of a thread whose next state is known *)
    Ltac mv Hg Hi Ep Epc pc :=
      let s' := fresh "s'" in let t' := fresh "t'" in let Es := fresh "Es" in
      edestruct (moves _ _ _ _ Hg Hi) as (s' & t' & Es); [rewrite Ep; discriminate|];
      assert (t' = pc) as -> by (unfold estep, ustep in Es; rewrite Epc, Ep, ?Eb in Es; cbn [op_key] in Es; repeat case_match; try discriminate; injection Es as <- <-; reflexivity).

    Lemma x_unlB s ls t p ok : good s ls -> ls !! i = Some t -> c_prog t = CErase k :: rest -> c_pc t = XUnlB p ok -> over i s t /\ (ok = true -> returns i s t).
    Proof using All.
      intros Hg Hi Ep Epc. destruct ok.
      - mv Hg Hi Ep Epc (cfinish t (CErase k) (RErased true)). assert (returns i s t) by (eexists _, _, _, _; split; [exact Ep|apply solo_one; exact Es]). split; [left; assumption|auto].
      - mv Hg Hi Ep Epc (cgo t (FOcc FEr1 b)). split; [|discriminate]. right. eexists _, _, _. split; [exact Ep|]. apply solo_one. exact Es.
    Qed.
    Lemma x_desB s ls t p : good s ls -> ls !! i = Some t -> c_prog t = CErase k :: rest -> c_pc t = XDesB p -> returns i s t.
    Proof using All.
      intros Hg Hi Ep Epc. mv Hg Hi Ep Epc (cgo t (XUnlB p true)). eapply returns_via; [exact Hg|exact Hi|apply solo_one; exact Es|]. intros Hg' Hi'. eapply (x_unlB _ _ _ p true Hg' Hi' Ep); reflexivity.
    Qed.
    Lemma x_cntB s ls t p : good s ls -> ls !! i = Some t -> c_prog t = CErase k :: rest -> c_pc t = XCntB p -> returns i s t.
    Proof using All.
      intros Hg Hi Ep Epc. mv Hg Hi Ep Epc (cgo t (XDesB p)). eapply returns_via; [exact Hg|exact Hi|apply solo_one; exact Es|]. intros Hg' Hi'. eapply (x_desB _ _ _ p Hg' Hi' Ep); reflexivity.
    Qed.
    Lemma x_resetB s ls t p : good s ls -> ls !! i = Some t -> c_prog t = CErase k :: rest -> c_pc t = XResetB p -> returns i s t.
    Proof using All.
      intros Hg Hi Ep Epc. mv Hg Hi Ep Epc (cgo t (XCntB p)). eapply returns_via; [exact Hg|exact Hi|apply solo_one; exact Es|]. intros Hg' Hi'. eapply (x_cntB _ _ _ p Hg' Hi' Ep); reflexivity.
    Qed.
    Lemma x_unl2 s ls t q ok : good s ls -> ls !! i = Some t -> c_prog t = CErase k :: rest -> c_pc t = XUnl2 q ok -> over i s t /\ (ok = true -> returns i s t).
    Proof using All.
      intros Hg Hi Ep Epc. destruct ok.
      - mv Hg Hi Ep Epc (cfinish t (CErase k) (RErased true)). assert (returns i s t) by (eexists _, _, _, _; split; [exact Ep|apply solo_one; exact Es]). split; [left; assumption|auto].
      - mv Hg Hi Ep Epc (cgo t (FOcc FEr1 b)). split; [|discriminate]. right. eexists _, _, _. split; [exact Ep|]. apply solo_one. exact Es.
    Qed.
    Lemma x_unl1 s ls t p q ok : good s ls -> ls !! i = Some t -> c_prog t = CErase k :: rest -> c_pc t = XUnl1 p q ok -> over i s t /\ (ok = true -> returns i s t).
    Proof using All.
      intros Hg Hi Ep Epc. mv Hg Hi Ep Epc (cgo t (XUnl2 q ok)). split.
      - eapply over_via; [exact Hg|exact Hi|apply solo_one; exact Es|]. intros Hg' Hi'. eapply (x_unl2 _ _ _ q ok Hg' Hi' Ep); reflexivity.
      - intros Hok. eapply returns_via; [exact Hg|exact Hi|apply solo_one; exact Es|]. intros Hg' Hi'. eapply (x_unl2 _ _ _ q ok Hg' Hi' Ep); [reflexivity|exact Hok].
    Qed.
    Lemma x_push s ls t p q x : good s ls -> ls !! i = Some t -> c_prog t = CErase k :: rest -> others ls i no_push -> c_pc t = XPush p q x -> returns i s t.
    Proof using All.
      intros Hg Hi Ep Ho Epc. destruct (push_alone s ls i t p q x Hg Hi Epc Ho) as (s' & R). eapply returns_via; [exact Hg|exact Hi|exact R|]. intros Hg' Hi'. eapply (x_unl1 _ _ _ p q true Hg' Hi' Ep); reflexivity.
    Qed.
    Lemma x_des s ls t p q : good s ls -> ls !! i = Some t -> c_prog t = CErase k :: rest -> others ls i no_push -> c_pc t = XDes p q -> returns i s t.
    Proof using All.
      intros Hg Hi Ep Ho Epc. mv Hg Hi Ep Epc (cgo t (XPush p q (push_call p))). eapply returns_via; [exact Hg|exact Hi|apply solo_one; exact Es|]. intros Hg' Hi'.
      eapply (x_push _ _ _ p q _ Hg' Hi' Ep (others_insert _ _ _ _ Ho)); reflexivity.
    Qed.
    Lemma x_cnt s ls t p q : good s ls -> ls !! i = Some t -> c_prog t = CErase k :: rest -> others ls i no_push -> c_pc t = XCnt p q -> returns i s t.
    Proof using All.
      intros Hg Hi Ep Ho Epc. mv Hg Hi Ep Epc (cgo t (XDes p q)). eapply returns_via; [exact Hg|exact Hi|apply solo_one; exact Es|]. intros Hg' Hi'.
      eapply (x_des _ _ _ p q Hg' Hi' Ep (others_insert _ _ _ _ Ho)); reflexivity.
    Qed.
    Lemma x_reset s ls t p q : good s ls -> ls !! i = Some t -> c_prog t = CErase k :: rest -> others ls i no_push -> c_pc t = XReset p q -> returns i s t.
    Proof using All.
      intros Hg Hi Ep Ho Epc. mv Hg Hi Ep Epc (cgo t (XCnt p q)). eapply returns_via; [exact Hg|exact Hi|apply solo_one; exact Es|]. intros Hg' Hi'.
      eapply (x_cnt _ _ _ p q Hg' Hi' Ep (others_insert _ _ _ _ Ho)); reflexivity.
    Qed.
    Lemma x_put s ls t p q o : good s ls -> ls !! i = Some t -> c_prog t = CErase k :: rest -> others ls i no_push -> c_pc t = XPut p q o -> returns i s t.
    Proof using All.
      intros Hg Hi Ep Ho Epc. mv Hg Hi Ep Epc (cgo t (XReset p q)). eapply returns_via; [exact Hg|exact Hi|apply solo_one; exact Es|]. intros Hg' Hi'.
      eapply (x_reset _ _ _ p q Hg' Hi' Ep (others_insert _ _ _ _ Ho)); reflexivity.
    Qed.
    Lemma x_add2 s ls t p q o : good s ls -> ls !! i = Some t -> c_prog t = CErase k :: rest -> others ls i no_push -> c_pc t = XAdd2 p q o -> returns i s t.
    Proof using All.
      intros Hg Hi Ep Ho Epc. edestruct (moves _ _ _ _ Hg Hi) as (s' & t' & Es); [rewrite Ep; discriminate|].
      assert (exists o', t' = cgo t (XPut p q o')) as [o' ->] by (unfold estep, ustep in Es; rewrite Epc, Ep, ?Eb in Es; repeat case_match; try discriminate; injection Es as <- <-; eauto).
      eapply returns_via; [exact Hg|exact Hi|apply solo_one; exact Es|]. intros Hg' Hi'. eapply (x_put _ _ _ p q _ Hg' Hi' Ep (others_insert _ _ _ _ Ho)); reflexivity.
    Qed.
    Lemma x_add1 s ls t p q : good s ls -> ls !! i = Some t -> c_prog t = CErase k :: rest -> others ls i no_push -> c_pc t = XAdd1 p q -> returns i s t.
    Proof using All.
      intros Hg Hi Ep Ho Epc. edestruct (moves _ _ _ _ Hg Hi) as (s' & t' & Es); [rewrite Ep; discriminate|].
      assert (exists o', t' = cgo t (XAdd2 p q o')) as [o' ->] by (unfold estep, ustep in Es; rewrite Epc, Ep, ?Eb in Es; repeat case_match; try discriminate; injection Es as <- <-; eauto).
      eapply returns_via; [exact Hg|exact Hi|apply solo_one; exact Es|]. intros Hg' Hi'. eapply (x_add2 _ _ _ p q _ Hg' Hi' Ep (others_insert _ _ _ _ Ho)); reflexivity.
    Qed.
    Lemma x_test s ls t p q : good s ls -> ls !! i = Some t -> c_prog t = CErase k :: rest -> others ls i no_push -> c_pc t = XTest p q -> returns i s t.
    Proof using All.
      intros Hg Hi Ep Ho Epc. edestruct (moves _ _ _ _ Hg Hi) as (s' & t' & Es); [rewrite Ep; discriminate|].
      assert (t' = cgo t (XPut p q 0) \/ t' = cgo t (XAdd1 p q)) as [-> | ->] by (unfold estep, ustep in Es; rewrite Epc, Ep, ?Eb in Es; repeat case_match; try discriminate; injection Es as <- <-; auto).
      - eapply returns_via; [exact Hg|exact Hi|apply solo_one; exact Es|]. intros Hg' Hi'. eapply (x_put _ _ _ p q _ Hg' Hi' Ep (others_insert _ _ _ _ Ho)); reflexivity.
      - eapply returns_via; [exact Hg|exact Hi|apply solo_one; exact Es|]. intros Hg' Hi'. eapply (x_add1 _ _ _ p q Hg' Hi' Ep (others_insert _ _ _ _ Ho)); reflexivity.
    Qed.
    Lemma x_back s ls t p : good s ls -> ls !! i = Some t -> c_prog t = CErase k :: rest -> c_pc t = XBack p -> over i s t.
    Proof using All.
      intros Hg Hi Ep Epc. mv Hg Hi Ep Epc (cgo t (FOcc FEr1 b)). right. eexists _, _, _. split; [exact Ep|]. apply solo_one. exact Es.
    Qed.
    Lemma tk_of s ls t : good s ls -> ls !! i = Some t -> c_prog t = CErase k :: rest -> exists Gn, kn s Gn true b k (c_pc t).
    Proof using All.
      intros (Gn & F & I) Hi Ep. destruct (ei_tk _ _ _ _ _ _ _ _ _ _ _ _ I t (elem_of_list_lookup_2 _ _ _ Hi)) as [_ T]. rewrite Ep in T. exists Gn. exact T.
    Qed.
    Let Hat t : c_prog t = CErase k :: rest -> at_call t (CErase k) b. Proof using All. intros Ep. split; [eauto|apply Eb]. Qed.
    Lemma x_prev2 s ls t p q same j prev : good s ls -> ls !! i = Some t -> c_prog t = CErase k :: rest -> others ls i no_push -> c_pc t = POff (PEr2 p q same) j prev \/ c_pc t = PAdd (PEr2 p q same) j prev -> over i s t.
    Proof using All.
      intros Hg Hi Ep Ho Hpc. destruct (tk_of s ls t Hg Hi Ep) as [Gn Hk].
      assert (Hj : prev = j /\ j ∈ nodes b).
      { destruct Hpc as [E0|E0]; rewrite E0 in Hk; cbn in Hk; destruct Hk as (_ & -> & a & Ha & _); (split; [reflexivity|eapply elem_of_list_lookup_2; exact Ha]). }
      destruct Hj as [-> Hj]. pose proof (walk_node s ls j b Hg (Hb k) Hj) as W.
      destruct (prevs_any kf hash keq bc E step Hst i s t _ _ _ j j W (Hat t Ep) W Hpc) as (q' & R & _). cbn [after_prev] in R. destruct (same && bool_decide (q = q')).
      - left. eapply returns_via; [exact Hg|exact Hi|exact R|]. intros Hg' Hi'. eapply (x_test _ _ _ p q Hg' Hi' Ep (others_insert _ _ _ _ Ho)); reflexivity.
      - eapply over_via; [exact Hg|exact Hi|exact R|]. intros Hg' Hi'. eapply (x_unl1 _ _ _ p q false Hg' Hi' Ep); reflexivity.
    Qed.
    Lemma walk_facts s ls t c j : good s ls -> ls !! i = Some t -> c_prog t = CErase k :: rest -> walking (c_pc t) c j -> walkable s j /\ (c_pc t = FVal c j -> exists v, c_values s !! j = Some (Some v)).
    Proof using All.
      intros Hg Hi Ep Hw. destruct (tk_of s ls t Hg Hi Ep) as [Gn Hk].
      assert (Hn : forall a, nodes b !! a = Some j -> walkable s j) by (intros a Ha; eapply walk_node; [exact Hg|apply (Hb k)|eapply elem_of_list_lookup_2; exact Ha]).
      destruct Hw as [E0|[E0|[E0|E0]]]; rewrite E0 in *; cbn in Hk.
      - destruct Hk as (_ & a & Ha & _). split; [eauto|discriminate].
      - destruct Hk as (_ & [v Hv] & _ & a & Ha & _). split; [eauto|]. intros _. destruct Hg as (Gn' & F' & I). exists v. rewrite (ei_val _ _ _ _ _ _ _ _ _ _ _ _ I). apply Hv.
      - destruct Hk as (_ & a & Ha & _). split; [eauto|discriminate].
      - destruct Hk as (_ & a & Ha & _). split; [eauto|discriminate].
    Qed.
    Lemma x_findL s ls t p q j : good s ls -> ls !! i = Some t -> c_prog t = CErase k :: rest -> others ls i no_push -> walking (c_pc t) (FErL p q) j -> over i s t.
    Proof using All.
      intros Hg Hi Ep Ho Hw. destruct (walk_facts s ls t _ j Hg Hi Ep Hw) as [W Hv]. destruct (finds_any kf hash keq bc E step Hst i s t _ _ _ j W (Hat t Ep) Hw Hv) as [r R]. cbn [after_find] in R.
      eapply over_via; [exact Hg|exact Hi|exact R|]. intros Hg' Hi'. eapply (x_prev2 _ _ _ p q _ b b Hg' Hi' Ep (others_insert _ _ _ _ Ho)). left. reflexivity.
    Qed.
    Lemma x_findB s ls t p j : good s ls -> ls !! i = Some t -> c_prog t = CErase k :: rest -> walking (c_pc t) (FErB p) j -> over i s t.
    Proof using All.
      intros Hg Hi Ep Hw. destruct (walk_facts s ls t _ j Hg Hi Ep Hw) as [W Hv]. destruct (finds_any kf hash keq bc E step Hst i s t _ _ _ j W (Hat t Ep) Hw Hv) as [r R]. cbn [after_find] in R.
      destruct (bool_decide (r = Some p)).
      - left. eapply returns_via; [exact Hg|exact Hi|exact R|]. intros Hg' Hi'. eapply (x_resetB _ _ _ p Hg' Hi' Ep); reflexivity.
      - eapply over_via; [exact Hg|exact Hi|exact R|]. intros Hg' Hi'. eapply (x_unlB _ _ _ p false Hg' Hi' Ep); reflexivity.
    Qed.
    Lemma x_lock2 s ls t p q : good s ls -> ls !! i = Some t -> c_prog t = CErase k :: rest -> others ls i no_push -> c_pc t = XLock2 p q -> over i s t.
    Proof using All.
      intros Hg Hi Ep Ho Epc. edestruct (moves _ _ _ _ Hg Hi) as (s' & t' & Es); [rewrite Ep; discriminate|].
      assert (t' = cgo t (XBack p) \/ t' = cgo t (FOcc (FErL p q) b)) as [-> | ->] by (unfold estep, ustep in Es; rewrite Epc, Ep, ?Eb in Es; repeat case_match; try discriminate; injection Es as <- <-; auto).
      - eapply over_via; [exact Hg|exact Hi|apply solo_one; exact Es|]. intros Hg' Hi'. eapply (x_back _ _ _ p Hg' Hi' Ep); reflexivity.
      - eapply over_via; [exact Hg|exact Hi|apply solo_one; exact Es|]. intros Hg' Hi'. eapply (x_findL _ _ _ p q b Hg' Hi' Ep (others_insert _ _ _ _ Ho)). left. reflexivity.
    Qed.
    Lemma x_holder s ls t : good s ls -> ls !! i = Some t -> c_prog t = CErase k :: rest -> others ls i no_push -> locks_of (c_pc t) <> [] -> over i s t.
    Proof using All.
      intros Hg Hi Ep Ho Hl. destruct (tk_of s ls t Hg Hi Ep) as [Gn Hk].
      destruct (c_pc t) as [| | |c j|c j|c j|c j|c j|c j|c j pr|c j pr| | | | | | |r|e|e q|e p|e p|e p|e p|e p|e r|p|p|p|p|p ok|p q|p q|p|p q|p q|p q o|p q o|p q|p q|p q|p q x|p q ok|q ok] eqn:Epc; cbn [locks_of UEraseProofs.kn] in Hl, Hk; try congruence; try contradiction.
      - destruct c; cbn [fctx_locks] in Hl; try congruence; [eapply (x_findB s ls t _ j)|eapply (x_findL s ls t _ _ j)]; eauto; rewrite Epc; left; reflexivity.
      - destruct c; cbn [fctx_locks] in Hl; try congruence; [eapply (x_findB s ls t _ j)|eapply (x_findL s ls t _ _ j)]; eauto; rewrite Epc; right; left; reflexivity.
      - destruct c; cbn [fctx_locks] in Hl; try congruence; [eapply (x_findB s ls t _ j)|eapply (x_findL s ls t _ _ j)]; eauto; rewrite Epc; right; right; left; reflexivity.
      - destruct c; cbn [fctx_locks] in Hl; try congruence; [eapply (x_findB s ls t _ j)|eapply (x_findL s ls t _ _ j)]; eauto; rewrite Epc; right; right; right; reflexivity.
      - destruct c; cbn [pctx_locks] in Hl; try congruence. eapply (x_prev2 s ls t _ _ _ j pr); eauto.
      - destruct c; cbn [pctx_locks] in Hl; try congruence. eapply (x_prev2 s ls t _ _ _ j pr); eauto.
      - left. eapply x_resetB; eauto.
      - left. eapply x_cntB; eauto.
      - left. eapply x_desB; eauto.
      - eapply x_unlB; eauto.
      - eapply x_lock2; eauto.
      - eapply x_back; eauto.
      - left. eapply x_test; eauto.
      - left. eapply x_add1; eauto.
      - left. eapply x_add2; eauto.
      - left. eapply x_put; eauto.
      - left. eapply x_reset; eauto.
      - left. eapply x_cnt; eauto.
      - left. eapply x_des; eauto.
      - left. eapply x_push; eauto.
      - eapply x_unl1; eauto.
      - eapply x_unl2; eauto.
    Qed.

    (** *** no other thread holds a lock *)
    Notation free := (fun t => locks_of (c_pc t) = []).
    Lemma free_no_push t : locks_of (c_pc t) = [] -> no_push t.
    Proof. intros H p q x Epc. rewrite Epc in H. discriminate. Qed.
    Lemma free_lock s ls t p : good s ls -> ls !! i = Some t -> others ls i free -> locks_of (c_pc t) = [] -> (p < n)%nat -> c_locks s !! p = Some false.
    Proof using All.
      intros (Gn & F & I) Hi Ho Hl Hp. pose proof (ei_lock _ _ _ _ _ _ _ _ _ _ _ _ I p Hp) as H. rewrite sumZ_zero in H.
      - rewrite (lk_Some (c_locks s) p) by (rewrite (ei_ll _ _ _ _ _ _ _ _ _ _ _ _ I); exact Hp). destruct (lk (c_locks s) p); [discriminate|reflexivity].
      - intros t' Ht'. unfold eholds. apply elem_of_list_lookup in Ht' as [j Hj]. destruct (decide (j = i)) as [-> |Hne].
        + assert (t' = t) as -> by congruence. rewrite Hl. reflexivity.
        + rewrite (Ho j t' Hne Hj). reflexivity.
    Qed.
    Lemma others_free ls : others ls i free -> others ls i no_push.
    Proof. intros H j tj Hne Hj. apply free_no_push. eapply H; eauto. Qed.
    Lemma x_lockB s ls t p : good s ls -> ls !! i = Some t -> c_prog t = CErase k :: rest -> others ls i free -> c_pc t = XLockB p -> over i s t.
    Proof using All.
      intros Hg Hi Ep Ho Epc. edestruct (moves _ _ _ _ Hg Hi) as (s' & t' & Es); [rewrite Ep; discriminate|].
      assert (t' = cgo t (FOcc FEr1 b) \/ t' = cgo t (FOcc (FErB p) b)) as [-> | ->] by (unfold estep, ustep in Es; rewrite Epc, Ep, ?Eb in Es; repeat case_match; try discriminate; injection Es as <- <-; auto).
      - right. eexists _, _, _. split; [exact Ep|]. apply solo_one. exact Es.
      - eapply over_via; [exact Hg|exact Hi|apply solo_one; exact Es|]. intros Hg' Hi'. eapply (x_findB _ _ _ p b Hg' Hi' Ep). left. reflexivity.
    Qed.
    Lemma x_lock1 s ls t p q : good s ls -> ls !! i = Some t -> c_prog t = CErase k :: rest -> others ls i free -> c_pc t = XLock1 p q -> over i s t.
    Proof using All.
      intros Hg Hi Ep Ho Epc. edestruct (moves _ _ _ _ Hg Hi) as (s' & t' & Es); [rewrite Ep; discriminate|].
      assert (t' = cgo t (FOcc FEr1 b) \/ t' = cgo t (XLock2 p q)) as [-> | ->] by (unfold estep, ustep in Es; rewrite Epc, Ep, ?Eb in Es; repeat case_match; try discriminate; injection Es as <- <-; auto).
      - right. eexists _, _, _. split; [exact Ep|]. apply solo_one. exact Es.
      - eapply over_via; [exact Hg|exact Hi|apply solo_one; exact Es|]. intros Hg' Hi'. eapply (x_lock2 _ _ _ p q Hg' Hi' Ep (others_insert _ _ _ _ (others_free _ Ho))). reflexivity.
    Qed.
    Lemma x_prev1 s ls t p j prev : good s ls -> ls !! i = Some t -> c_prog t = CErase k :: rest -> others ls i free -> c_pc t = POff (PEr1 p) j prev \/ c_pc t = PAdd (PEr1 p) j prev -> over i s t.
    Proof using All.
      intros Hg Hi Ep Ho Hpc. destruct (tk_of s ls t Hg Hi Ep) as [Gn Hk].
      assert (Hj : prev = j /\ j ∈ nodes b) by (destruct Hpc as [E0|E0]; rewrite E0 in Hk; cbn in Hk; tauto).
      destruct Hj as [-> Hj]. pose proof (walk_node s ls j b Hg (Hb k) Hj) as W.
      destruct (prevs_any kf hash keq bc E step Hst i s t _ _ _ j j W (Hat t Ep) W Hpc) as (q' & R & _). cbn [after_prev] in R.
      eapply over_via; [exact Hg|exact Hi|exact R|]. intros Hg' Hi'. eapply (x_lock1 _ _ _ p q' Hg' Hi' Ep (others_insert _ _ _ _ Ho)). reflexivity.
    Qed.
    Lemma x_find1 s ls t j : good s ls -> ls !! i = Some t -> c_prog t = CErase k :: rest -> others ls i free -> walking (c_pc t) FEr1 j -> over i s t.
    Proof using All.
      intros Hg Hi Ep Ho Hw. destruct (walk_facts s ls t _ j Hg Hi Ep Hw) as [W Hv]. destruct (finds_any kf hash keq bc E step Hst i s t _ _ _ j W (Hat t Ep) Hw Hv) as [r R]. cbn [after_find] in R.
      destruct r as [p|]; [|left; eexists _, _, _, _; split; [exact Ep|exact R]]. destruct (bool_decide (p = b)).
      - eapply over_via; [exact Hg|exact Hi|exact R|]. intros Hg' Hi'. eapply (x_lockB _ _ _ p Hg' Hi' Ep (others_insert _ _ _ _ Ho)). reflexivity.
      - eapply over_via; [exact Hg|exact Hi|exact R|]. intros Hg' Hi'. eapply (x_prev1 _ _ _ p b b Hg' Hi' Ep (others_insert _ _ _ _ Ho)). left. reflexivity.
    Qed.
    (** from the head of the loop: the call returns *)
    Lemma walkable_range s ls j : good s ls -> walkable s j -> (j < n)%nat.
    Proof. intros (Gn & F & I) W. destruct (walkable_occ s j W) as [o Ho]. apply lookup_lt_Some in Ho. pose proof (ei_lo _ _ _ _ _ _ _ _ _ _ _ _ I). lia. Qed.
    Lemma x_fresh s ls t : good s ls -> ls !! i = Some t -> c_prog t = CErase k :: rest -> others ls i free -> c_pc t = FOcc FEr1 b -> returns i s t.
    Proof using All.
      intros Hg Hi Ep Ho Epc. assert (Hfree : forall p, (p < n)%nat -> c_locks s !! p = Some false) by (intros p Hp; exact (free_lock s ls t p Hg Hi Ho ltac:(rewrite Epc; reflexivity) Hp)).
      pose proof (walk_node s ls b b Hg (Hb k) (bucket_node b)) as W. pose proof (Hat t Ep) as Ha.
      destruct (finds_ex kf hash keq bc E step Hst s k b W) as (r & Hr & Hh).
      assert (R1 : solo i (s, t) (s, after_find t (CErase k) b FEr1 r)).
      { pose proof (Hr i s t (CErase k) b FEr1 (same_refl s) Ha eq_refl) as R. rewrite (cgo_pc t _ Epc) in R. exact R. }
      destruct r as [p|]; cbn [after_find] in R1; [|eexists _, _, _, _; split; [exact Ep|exact R1]].
      destruct (Hh p eq_refl) as [Wp _]. pose proof (walkable_range s ls p Hg Wp) as Hpn.
      destruct (decide (p = b)) as [-> |Hne].
      - rewrite bool_decide_true in R1 by reflexivity. set (s1 := put_lock s b true).
        assert (R2 : solo i (s, t) (s1, cgo t (XResetB b))).
        { eapply solo_trans; [exact R1|]. eapply solo_step; [unfold estep, ustep; cbn [cgo c_pc c_prog]; rewrite Ep, Eb, (Hfree b Hpn); reflexivity|]. fold s1.
          pose proof (Hr i s1 t (CErase k) b (FErB b) (same_lock s b true) Ha eq_refl) as R. cbn [after_find] in R. rewrite bool_decide_true in R by reflexivity. exact R. }
        eapply returns_via; [exact Hg|exact Hi|exact R2|]. intros Hg' Hi'. eapply (x_resetB _ _ _ b Hg' Hi' Ep); reflexivity.
      - rewrite bool_decide_false in R1 by exact Hne. destruct (prevs_ex kf hash keq bc E step Hst s p b W ltac:(congruence)) as (q & Hq & Wq & Hqp).
        pose proof (walkable_range s ls q Hg Wq) as Hqn. set (s1 := put_lock s p true). set (s2 := put_lock s1 q true).
        assert (Hsame : same_lists s s2) by (repeat split).
        assert (Hl2 : c_locks s1 !! q = Some false) by (cbn; rewrite list_lookup_insert_ne by congruence; exact (Hfree q Hqn)).
        assert (R2 : solo i (s, t) (s2, cgo t (XTest p q))).
        { eapply solo_trans; [exact R1|]. eapply solo_trans; [apply (Hq i s t (CErase k) b (PEr1 p) (same_refl s) Ha eq_refl)|]. cbn [after_prev].
          eapply solo_step; [unfold estep, ustep; cbn [cgo c_pc c_prog]; rewrite Ep, Eb, (Hfree p Hpn); reflexivity|]. fold s1.
          eapply solo_step; [unfold estep, ustep; cbn [cgo c_pc c_prog]; rewrite Ep, Eb, Hl2; reflexivity|]. fold s2.
          eapply solo_trans; [apply (Hr i s2 t (CErase k) b (FErL p q) Hsame Ha eq_refl)|]. cbn [after_find]. rewrite bool_decide_true by reflexivity.
          eapply solo_trans; [apply (Hq i s2 t (CErase k) b (PEr2 p q true) Hsame Ha eq_refl)|]. cbn [after_prev]. rewrite bool_decide_true by reflexivity. apply rtc_refl. }
        eapply returns_via; [exact Hg|exact Hi|exact R2|]. intros Hg' Hi'. eapply (x_test _ _ _ p q Hg' Hi' Ep (others_insert _ _ _ _ (others_free _ Ho))); reflexivity.
    Qed.
  End attempt.

  (** *** all calls *)
  Notation free := (fun t => locks_of (c_pc t) = []).
  Lemma call_returns s ls i t : good s ls -> ls !! i = Some t -> others ls i free -> locks_of (c_pc t) = [] -> c_prog t <> [] -> returns i s t.
  Proof using All.
    intros Hg Hi Ho Hl Hne. destruct (c_prog t) as [|op rest] eqn:Ep; [congruence|]. clear Hne. pose proof Hg as (Gn & F & I).
    assert (Hat : at_call t op (bkt (op_key kf op))) by (split; [eauto|apply Eb]).
    destruct (ei_tk _ _ _ _ _ _ _ _ _ _ _ _ I t (elem_of_list_lookup_2 _ _ _ Hi)) as [T0 T1]. rewrite Ep in T0, T1.
    destruct op as [v|k|k]; [destruct (T0 (CInsert v) ltac:(left))| |].
    - cbn [is_er op_key] in T1. assert (Hov : over i s t).
      { destruct (c_pc t) as [| | |c j|c j|c j|c j|c j|c j|c j pr|c j pr| | | | | | |r|e|e q|e p|e p|e p|e p|e p|e r|p|p|p|p|p ok|p q|p q|p|p q|p q|p q o|p q o|p q|p q|p q|p q x|p q ok|q ok] eqn:Epc; cbn [locks_of UEraseProofs.kn] in Hl, T1; try discriminate; try contradiction.
        - right. exists s, k, rest. split; [exact Ep|]. apply solo_one. unfold estep, ustep. rewrite Epc, Ep, Eb. reflexivity.
        - destruct c; cbn [fctx_locks] in Hl; try discriminate; try (destruct T1 as [T1 _]; discriminate); try (destruct T1 as [[] _]). eapply (x_find1 i k rest s ls t j Hg Hi Ep Ho). rewrite Epc. left. reflexivity.
        - destruct c; cbn [fctx_locks] in Hl; try discriminate; try (destruct T1 as [T1 _]; discriminate); try (destruct T1 as [[] _]). eapply (x_find1 i k rest s ls t j Hg Hi Ep Ho). rewrite Epc. right; left. reflexivity.
        - destruct c; cbn [fctx_locks] in Hl; try discriminate; try (destruct T1 as [T1 _]; discriminate); try (destruct T1 as [[] _]). eapply (x_find1 i k rest s ls t j Hg Hi Ep Ho). rewrite Epc. right; right; left. reflexivity.
        - destruct c; cbn [fctx_locks] in Hl; try discriminate; try (destruct T1 as [T1 _]; discriminate); try (destruct T1 as [[] _]). eapply (x_find1 i k rest s ls t j Hg Hi Ep Ho). rewrite Epc. right; right; right. reflexivity.
        - destruct c; cbn [pctx_locks] in Hl; try discriminate. eapply (x_prev1 i k rest s ls t _ j pr Hg Hi Ep Ho). left. exact Epc.
        - destruct c; cbn [pctx_locks] in Hl; try discriminate. eapply (x_prev1 i k rest s ls t _ j pr Hg Hi Ep Ho). right. exact Epc.
        - exact (x_lockB i k rest s ls t p Hg Hi Ep Ho Epc).
        - exact (x_lock1 i k rest s ls t p q Hg Hi Ep Ho Epc). }
      destruct Hov as [H|(s' & k' & rest' & Ep' & R)]; [exact H|]. assert (k' = k) as -> by congruence. pose proof (solo_reach _ _ _ _ _ _ _ R Hi) as RR.
      eapply returns_trans; [exact R|]. eapply (x_fresh i k rest s'); [eapply good_reach; [exact Hg|exact RR]|apply list_lookup_insert; eapply lookup_lt_Some; exact Hi|exact Ep|apply others_insert, Ho|reflexivity].
    - cbn [is_er op_key] in T1, Hat. assert (Hfw : forall j, walking (c_pc t) FUser j -> (exists a, nodes (bkt k) !! a = Some j) -> (c_pc t = FVal FUser j -> exists v, c_values s !! j = Some (Some v)) -> returns i s t).
      { intros j Hw [a Ha] Hv. pose proof (walk_node s ls j (bkt k) Hg (Hb k) (elem_of_list_lookup_2 _ _ _ Ha)) as W. destruct (finds_any kf hash keq bc E step Hst i s t _ _ _ j W Hat Hw Hv) as [r R].
        eexists _, _, _, _. split; [exact Ep|exact R]. }
      destruct (c_pc t) as [| | |c j|c j|c j|c j|c j|c j|c j pr|c j pr| | | | | | |r|e|e q|e p|e p|e p|e p|e p|e r|p|p|p|p|p ok|p q|p q|p|p q|p q|p q o|p q o|p q|p q|p q|p q x|p q ok|q ok] eqn:Epc; cbn [locks_of UEraseProofs.kn] in Hl, T1; try discriminate; try contradiction;
        try (destruct T1 as [T1 _]; discriminate T1); try (destruct c; cbn [fctx_locks pctx_locks] in Hl; try discriminate; try (destruct T1 as [T1 _]; discriminate T1); try (destruct T1 as [T1 _]; destruct T1; fail); try (destruct T1 as [[T1 _] _]; discriminate T1); try (destruct T1 as [T1 _]; contradiction T1)).
      + destruct (finds_ex kf hash keq bc E step Hst s k (bkt k) (walk_node s ls _ _ Hg (Hb k) (bucket_node _))) as (r & Hr & _). eexists _, _, _, _. split; [exact Ep|].
        eapply solo_step; [unfold estep, ustep; rewrite Epc, Ep; cbn [op_key]; rewrite Eb; reflexivity|]. apply (Hr i s t (CFind k) (bkt k) FUser); [apply same_refl|exact Hat|reflexivity].
      + apply (Hfw j); [left; reflexivity| |discriminate]. destruct T1 as (_ & a & Ha & _). eauto.
      + apply (Hfw j); [right; left; reflexivity| |]; [destruct T1 as (_ & _ & _ & a & Ha & _); eauto|]. intros _. destruct T1 as (_ & [v Hv] & _). exists v. rewrite (ei_val _ _ _ _ _ _ _ _ _ _ _ _ I). apply Hv.
      + apply (Hfw j); [right; right; left; reflexivity| |discriminate]. destruct T1 as (_ & a & Ha & _). eauto.
      + apply (Hfw j); [right; right; right; reflexivity| |discriminate]. destruct T1 as (_ & a & Ha & _). eauto.
  Qed.
  Lemma all_free s ls : good s ls -> (forall t, t ∈ ls -> no_push t) -> exists s' ls', Conc.reach step (s, ls) (s', ls') /\ good s' ls' /\ forall t, t ∈ ls' -> locks_of (c_pc t) = [].
  Proof using All.
    intros Hg Hn. destruct (one_by_one step (fun s ls => good s ls /\ forall t, t ∈ ls -> no_push t) (fun t => locks_of (c_pc t) = [])) with (s := s) (ls := ls) as (s' & ls' & R & [I' _] & Q); [|auto|eauto].
    clear s ls Hg Hn. intros s ls i t [Hg Hn] Hi. destruct (decide (locks_of (c_pc t) = [])) as [El|El].
    - exists s, t. rewrite list_insert_id by exact Hi. split; [apply rtc_refl|]. auto.
    - assert (Hex : exists s' t', solo i (s, t) (s', t') /\ locks_of (c_pc t') = []).
      { pose proof Hg as (Gn & F & I). destruct (ei_tk _ _ _ _ _ _ _ _ _ _ _ _ I t (elem_of_list_lookup_2 _ _ _ Hi)) as [T0 T1]. destruct (c_prog t) as [|op rest] eqn:Ep; [rewrite T1 in El; destruct (El eq_refl)|].
        destruct op as [v|k|k]; [destruct (T0 (CInsert v) ltac:(left))| |].
        - destruct (x_holder i k rest s ls t Hg Hi Ep) as [(s' & op & r & rest' & _ & R)|(s' & k' & rest' & _ & R)].
          { intros j tj _ Hj. apply Hn. eapply elem_of_list_lookup_2. exact Hj. } { exact El. }
          + exists s', (cfinish t op r). auto.
          + exists s', (cgo t (FOcc FEr1 (bkt k'))). auto.
        - exfalso. cbn [is_er op_key] in T1. destruct (c_pc t); cbn [locks_of UEraseProofs.kn] in El, T1; try congruence; try contradiction; unfold UEraseProofs.ready, base in T1; try (destruct T1 as [T1 _]; discriminate T1);
            try (destruct T1 as [[T1 _] _]; discriminate T1); try (destruct T1 as [[[T1 _] _] _]; discriminate T1); destruct c; cbn [fctx_locks pctx_locks] in El; try congruence; unfold base in T1; try (destruct T1 as [[T1 _] _]; discriminate T1). }
      destruct Hex as (s' & t' & R & Hl). pose proof (solo_reach _ _ _ _ _ _ _ R Hi) as RR. exists s', t'. split; [exact RR|]. split; [|exact Hl]. split; [eapply good_reach; [exact Hg|exact RR]|].
      intros t0 Ht0. apply elem_of_list_lookup in Ht0 as [j Hj]. apply list_lookup_insert_Some in Hj as [(_ & <- & _)|[_ Hj]]; [apply free_no_push; exact Hl|apply Hn; eapply elem_of_list_lookup_2; exact Hj].
  Qed.
  Lemma all_return m : forall s ls, sumZ (fun t => Z.of_nat (length (c_prog t))) ls <= Z.of_nat m -> good s ls -> (forall t, t ∈ ls -> locks_of (c_pc t) = []) ->
    exists s' ls', Conc.reach step (s, ls) (s', ls') /\ all_returned ls'.
  Proof using All.
    induction m as [|m IH]; intros s ls Hm Hg Hf.
    - exists s, ls. split; [apply rtc_refl|]. intros t Ht. assert (Ep : c_prog t = []).
      { pose proof Ht as Ht'. apply elem_of_list_lookup in Ht' as [j Hj]. pose proof (sumZ_ge_elem (fun t => Z.of_nat (length (c_prog t))) ls j t ltac:(intros; apply Nat2Z.is_nonneg) Hj) as H. cbn beta in H. destruct (c_prog t); [reflexivity|]. cbn [length] in H. lia. }
      split; [exact Ep|]. destruct Hg as (Gn & F & I). destruct (ei_tk _ _ _ _ _ _ _ _ _ _ _ _ I t Ht) as [_ T1]. rewrite Ep in T1. exact T1.
    - destruct (decide (Exists (fun t => c_prog t <> []) ls)) as [Hex|Hnx].
      + apply Exists_exists in Hex as (t & Ht & Hne). apply elem_of_list_lookup in Ht as [i Hi].
        destruct (call_returns s ls i t Hg Hi) as (s' & op & r & rest & Ep & R); [intros j tj _ Hj; apply Hf; eapply elem_of_list_lookup_2; exact Hj|apply Hf; eapply elem_of_list_lookup_2; exact Hi|exact Hne|].
        pose proof (solo_reach _ _ _ _ _ _ _ R Hi) as RR.
        destruct (IH s' (<[i := cfinish t op r]> ls)) as (s2 & ls2 & R2 & A2).
        { rewrite (sumZ_insert _ _ _ _ _ Hi). cbn [cfinish c_prog]. rewrite Ep. cbn [tail length]. lia. }
        { eapply good_reach; [exact Hg|exact RR]. }
        { intros t0 Ht0. apply elem_of_list_lookup in Ht0 as [j Hj]. apply list_lookup_insert_Some in Hj as [(_ & <- & _)|[_ Hj]]; [reflexivity|apply Hf; eapply elem_of_list_lookup_2; exact Hj]. }
        exists s2, ls2. split; [etrans; [exact RR|exact R2]|exact A2].
      + exists s, ls. split; [apply rtc_refl|]. intros t Ht. assert (Ep : c_prog t = []).
        { destruct (c_prog t) eqn:Ep; [reflexivity|]. exfalso. apply Hnx. apply Exists_exists. exists t. split; [exact Ht|congruence]. }
        split; [exact Ep|]. destruct Hg as (Gn & F & I). destruct (ei_tk _ _ _ _ _ _ _ _ _ _ _ _ I t Ht) as [_ T1]. rewrite Ep in T1. exact T1.
  Qed.
  Lemma erases_complete s ls : good s ls -> exists s' ls', Conc.reach step (s, ls) (s', ls') /\ all_returned ls'.
  Proof using All.
    intros Hg. destruct (pushes_complete s ls Hg) as (s1 & ls1 & R1 & I1 & Hn).
    destruct (all_free s1 ls1 I1 Hn) as (s2 & ls2 & R2 & Hg2 & Hf).
    destruct (all_return (Z.to_nat (sumZ (fun t => Z.of_nat (length (c_prog t))) ls2)) s2 ls2) as (s3 & ls3 & R3 & A3); [lia|exact Hg2|exact Hf|].
    exists s3, ls3. split; [|exact A3]. etrans; [exact R1|]. etrans; [exact R2|exact R3].
  Qed.
  (** a thread that runs alone while no other thread is in a call returns, wherever it is in its call *)
  Lemma alone_returns s ls i t : good s ls -> ls !! i = Some t -> others ls i (fun t => c_pc t = UIdle) -> c_prog t <> [] -> returns i s t.
  Proof using All.
    intros Hg Hi Hal Hne.
    assert (Hfree : others ls i free) by (intros j tj Hj Htj; rewrite (Hal j tj Hj Htj); reflexivity).
    destruct (decide (locks_of (c_pc t) = [])) as [El|El]; [exact (call_returns s ls i t Hg Hi Hfree El Hne)|].
    pose proof Hg as (Gn & F & I). destruct (ei_tk _ _ _ _ _ _ _ _ _ _ _ _ I t (elem_of_list_lookup_2 _ _ _ Hi)) as [T0 T1].
    destruct (c_prog t) as [|op rest] eqn:Ep; [congruence|]. destruct op as [v|k|k]; [destruct (T0 (CInsert v) ltac:(left))| |].
    - destruct (x_holder i k rest s ls t Hg Hi Ep) as [H|(s' & k' & rest' & Ep' & R)]; [intros j tj Hj Htj; unfold no_push; intros; rewrite (Hal j tj Hj Htj); discriminate|exact El|exact H|].
      pose proof (solo_reach _ _ _ _ _ _ _ R Hi) as RR. eapply returns_trans; [exact R|].
      apply (call_returns s' (<[i := cgo t (FOcc FEr1 (bkt k'))]> ls) i); [eapply good_reach; [exact Hg|exact RR]|apply list_lookup_insert; eapply lookup_lt_Some; exact Hi|apply others_insert, Hfree|reflexivity|cbn [cgo c_prog]; congruence].
    - exfalso. cbn [is_er op_key] in T1. destruct (c_pc t); cbn [locks_of UEraseProofs.kn] in El, T1; try congruence; try contradiction; unfold UEraseProofs.ready, base in T1; try (destruct T1 as [T1 _]; discriminate T1);
            try (destruct T1 as [[T1 _] _]; discriminate T1); try (destruct T1 as [[[T1 _] _] _]; discriminate T1); destruct c; cbn [fctx_locks pctx_locks] in El; try congruence; unfold base in T1; try (destruct T1 as [[T1 _] _]; discriminate T1).
  Qed.
End ersprog.
