(** Concurrent inserts and lookups on the unordered containers can always complete. *)
From Verif Require Import Base Conc SlotModel SlotSpec SlotProofs VectorModel VectorProofs VectorConcProofs HashProofs UnorderedModel UnorderedSpec UnorderedProofs UConcModel UConcSpec UConcProofs UConcReach UEraseModel UProgSpec UWalk.

Section insprog.
  Context {K V : Type} (kf : V -> K) (hash : K -> Z) (keq : K -> K -> bool) (bc E : nat).
  Hypothesis keq_refl : forall a, keq a a = true.
  Hypothesis keq_sym : forall a b, keq a b = true -> keq b a = true.
  Hypothesis keq_trans : forall a b c, keq a b = true -> keq b c = true -> keq a c = true.
  Hypothesis Hhash : forall a b, keq a b = true -> hash a = hash b.
  Hypothesis Hbc : (0 < bc)%nat.
  Hypothesis HE : (0 < E)%nat.
  Hypothesis Hmax : Z.of_nat (bc + E) <= INT_MAX.
  Notation n := (bc + E)%nat.
  Notation bkt := (bkt hash bc).
  Implicit Types (s : cshared V) (t : cthread K V) (ls : list (cthread K V)) (G : list (option V * list (nat * V))) (F : list nat) (g : option V * list (nat * V)).
  Context (M0 : list V).
  Notation cinv := (cinv kf hash keq bc E M0).
  Notation step := (ustep kf hash keq bc E).
  Notation lock_of := (lock_of kf hash bc).
  Notation B f := (f kf hash keq bc E keq_refl keq_sym keq_trans Hhash Hbc HE Hmax).
  Notation at_call := (at_call kf hash bc).
  Notation solo := (solo step).
  Let Hst : forall i s t, no_destroy (c_pc t) -> step i s t = step i s t. Proof. reflexivity. Qed.

  Lemma walk_node s ls G F b g j : cinv s ls G F -> G !! b = Some g -> j ∈ b :: gpos g -> walkable s j.
  Proof using All.
    intros I Hb Hj. destruct (ci_head _ _ _ _ _ _ _ _ _ _ I b g Hb) as [Ho Hv].
    assert (HA : forall es1 es2, g.2 = es1 ++ es2 -> exists o : bool, c_occ s !! lend b es1.*1 = Some o /\ (o = true -> exists v, c_values s !! lend b es1.*1 = Some (Some v))).
    { intros es1 es2 Eg. destruct (decide (es1 = [])) as [-> |Hne].
      - cbn; exists (is_some g.1); split; [exact Ho|]; destruct g.1 as [h|]; [eauto|discriminate].
      - destruct (exists_last Hne) as (es0 & [y u] & ->); rewrite fmap_app; cbn [fmap list_fmap fst]; rewrite lend_snoc;
        destruct (ci_chain _ _ _ _ _ _ _ _ _ _ I b g y u Hb) as [H1 H2]; [rewrite Eg; rewrite !elem_of_app; left; right; left|]; exists true; split; [exact H2|eauto]. }
    assert (HN : forall es2 es1, g.2 = es1 ++ es2 -> walkable s (lend b es1.*1)).
    { induction es2 as [|[x w] es2 IH]; intros es1 Eg.
      all: pose proof (ci_link _ _ _ _ _ _ _ _ _ _ I b g Hb) as HL; unfold gpos in HL; rewrite Eg, fmap_app in HL; apply linked_split in HL; specialize (HA es1 _ Eg).
      - destruct HA as (o & H1 & H2). eapply WEnd; eauto.
      - destruct HA as (o & H1 & H2). cbn [fmap list_fmap fst linked] in HL. destruct HL as (H3 & H4 & _). apply (WNext s _ o (Z.of_nat x - Z.of_nat (lend b es1.*1)) x); [exact H1|exact H2|exact H4|lia| |].
        + unfold next_entry. rewrite (proj2 (Z.leb_le _ _)) by lia. f_equal. lia.
        + specialize (IH (es1 ++ [(x, w)])). rewrite fmap_app in IH. cbn [fmap list_fmap fst] in IH. rewrite lend_snoc in IH. apply IH. rewrite <- app_assoc. exact Eg. }
    apply elem_of_cons in Hj as [-> |Hj]; [apply (HN g.2 []); reflexivity|]. unfold gpos in Hj. apply elem_of_list_fmap in Hj as ([x w] & -> & Hx). cbn [fst].
    apply elem_of_list_split in Hx as (l1 & l2 & E1). specialize (HN l2 (l1 ++ [(x, w)])). rewrite fmap_app in HN. cbn [fmap list_fmap fst] in HN. rewrite lend_snoc in HN. apply HN. rewrite <- app_assoc. exact E1.
  Qed.

  Definition sized s : Prop := length (c_values s) = n /\ length (c_off s) = n /\ length (c_occ s) = n /\ length (c_locks s) = n.
  Lemma cinv_sized s ls G F : cinv s ls G F -> sized s.
  Proof. intros I. split; [apply I|]. split; [apply I|]. split; apply I. Qed.
  Lemma sized_value s p o : sized s -> sized (put_value s p o). Proof. unfold sized. cbn. rewrite insert_length. auto. Qed.
  Lemma sized_off s p o : sized s -> sized (put_off s p o). Proof. unfold sized. cbn. rewrite insert_length. auto. Qed.
  Lemma sized_occ s p o : sized s -> sized (put_occ s p o). Proof. unfold sized. cbn. rewrite insert_length. auto. Qed.
  Lemma sized_lock s p o : sized s -> sized (put_lock s p o). Proof. unfold sized. cbn. rewrite insert_length. auto. Qed.
  Lemma sized_count s c : sized s -> sized (put_count s c). Proof. auto. Qed.
  Lemma sized_ex s x : sized s -> sized (put_ex s x). Proof. auto. Qed.
  Lemma sz_values s p : sized s -> (p < n)%nat -> exists o, c_values s !! p = Some o. Proof. intros H Hp. apply lookup_lt_is_Some_2. destruct H as (-> & _). exact Hp. Qed.
  Lemma sz_off s p : sized s -> (p < n)%nat -> exists o : Z, c_off s !! p = Some o. Proof. intros H Hp. apply lookup_lt_is_Some_2. destruct H as (_ & -> & _). exact Hp. Qed.
  Lemma sz_occ s p : sized s -> (p < n)%nat -> exists o : bool, c_occ s !! p = Some o. Proof. intros H Hp. apply lookup_lt_is_Some_2. destruct H as (_ & _ & -> & _). exact Hp. Qed.
  Lemma sz_locks s p : sized s -> (p < n)%nat -> exists o : bool, c_locks s !! p = Some o. Proof. intros H Hp. apply lookup_lt_is_Some_2. destruct H as (_ & _ & _ & ->). exact Hp. Qed.

  (** the call of thread t returns / the attempt ends and the loop is entered again *)
  Definition returns i s t : Prop := exists s' op r rest, c_prog t = op :: rest /\ solo i (s, t) (s', cfinish t op r).
  Definition retries i s t : Prop := exists s', solo i (s, t) (s', cgo t UFullCheck).
  Definition over i s t : Prop := returns i s t \/ retries i s t.
  Lemma returns_step i s t s' pc : step i s t = Some (s', cgo t pc) -> returns i s' (cgo t pc) -> returns i s t.
  Proof. intros H (s2 & op & r & rest & Ep & R). exists s2, op, r, rest. split; [exact Ep|]. eapply solo_step; [exact H|exact R]. Qed.
  Lemma returns_trans i s t s' pc : solo i (s, t) (s', cgo t pc) -> returns i s' (cgo t pc) -> returns i s t.
  Proof. intros H (s2 & op & r & rest & Ep & R). exists s2, op, r, rest. split; [exact Ep|]. eapply solo_trans; [exact H|exact R]. Qed.
  Lemma over_trans i s t s' pc : solo i (s, t) (s', cgo t pc) -> over i s' (cgo t pc) -> over i s t.
  Proof.
    intros H [R|(s2 & R)]; [left; eapply returns_trans; eauto|]. right. exists s2. eapply solo_trans; [exact H|exact R].
  Qed.
  Lemma over_step i s t s' pc : step i s t = Some (s', cgo t pc) -> over i s' (cgo t pc) -> over i s t.
  Proof. intros H. apply over_trans. apply solo_one. exact H. Qed.

  Section call.
    Context (i : nat) (t : cthread K V) (v : V) (rest : list (cop K V)).
    Hypothesis Ep : c_prog t = CInsert v :: rest.
    Notation b := (bkt (kf v)).
    Let Eb : bucket_of hash bc (op_key kf (CInsert v : cop K V)) = Some b. Proof using All. apply (bucket_of_bkt hash keq bc E keq_refl keq_sym keq_trans Hhash Hbc HE Hmax (kf v)). Qed.
    Let Hb : (b < n)%nat. Proof using All. pose proof (proj2 (bucket_of_bkt hash keq bc E keq_refl keq_sym keq_trans Hhash Hbc HE Hmax (kf v))). lia. Qed.
    Lemma Ha : at_call t (CInsert v) b.
    Proof using All. split; [eauto|exact Eb]. Qed.
    Ltac st := unfold ustep; cbn [c_prog c_pc cgo]; rewrite Ep, Eb.

    Lemma r_unlB s r : sized s -> over i s (cgo t (IUnlB r)).
    Proof using All.
      intros Hs. destruct (sz_locks s b Hs Hb) as [o Ho]. destruct r as [p|].
      - left. eexists _, _, _, _. split; [exact Ep|]. apply solo_one. st. rewrite Ho. reflexivity.
      - right. eexists. apply solo_one. st. rewrite Ho. reflexivity.
    Qed.
    Lemma r_unlB_some s p : sized s -> returns i s (cgo t (IUnlB (Some p))).
    Proof using All.
      intros Hs. destruct (sz_locks s b Hs Hb) as [o Ho]. eexists _, _, _, _. split; [exact Ep|]. apply solo_one. st. rewrite Ho. reflexivity.
    Qed.
    Lemma r_setB s : sized s -> returns i s (cgo t ISetB).
    Proof using All. intros Hs. destruct (sz_occ s b Hs Hb) as [o Ho]. eapply returns_step; [st; rewrite Ho; reflexivity|]. apply r_unlB_some. apply sized_occ, Hs. Qed.
    Lemma r_cntB s : sized s -> returns i s (cgo t ICntB).
    Proof using All. intros Hs. eapply returns_step; [st; reflexivity|]. apply r_setB. exact Hs. Qed.
    Lemma r_conB s : sized s -> returns i s (cgo t IConB).
    Proof using All. intros Hs. destruct (sz_values s b Hs Hb) as [o Ho]. eapply returns_step; [st; rewrite Ho; reflexivity|]. apply r_cntB. apply sized_value, Hs. Qed.
    Lemma r_occB s : sized s -> over i s (cgo t IOccB).
    Proof using All.
      intros Hs. destruct (sz_occ s b Hs Hb) as [o Ho]. eapply (over_step i s _ s (if o then IUnlB None else IConB)); [st; rewrite Ho; reflexivity|]. destruct o; [apply r_unlB; exact Hs|left; apply r_conB; exact Hs].
    Qed.
    Lemma r_findB s r : sized s -> over i s (after_find t (CInsert v) b FInsB r).
    Proof using All. intros Hs. destruct r; [apply r_unlB|apply r_occB]; exact Hs. Qed.

    Lemma r_unlL s e r : sized s -> (e < n)%nat -> over i s (cgo t (IUnlL e r)).
    Proof using All.
      intros Hs He. destruct (sz_locks s e Hs He) as [o Ho]. destruct r as [p|].
      - left. eexists _, _, _, _. split; [exact Ep|]. apply solo_one. st. rewrite Ho. reflexivity.
      - right. eexists. apply solo_one. st. rewrite Ho. reflexivity.
    Qed.
    Lemma r_unlL_some s e p : sized s -> (e < n)%nat -> returns i s (cgo t (IUnlL e (Some p))).
    Proof using All.
      intros Hs He. destruct (sz_locks s e Hs He) as [o Ho]. eexists _, _, _, _. split; [exact Ep|]. apply solo_one. st. rewrite Ho. reflexivity.
    Qed.
    Lemma r_linkL s e p : sized s -> (e < n)%nat -> returns i s (cgo t (ILinkL e p)).
    Proof using All. intros Hs He. destruct (sz_off s e Hs He) as [o Ho]. eapply returns_step; [st; rewrite Ho; reflexivity|]. apply r_unlL_some; [apply sized_off, Hs|exact He]. Qed.
    Lemma r_setL s e p : sized s -> (e < n)%nat -> (p < n)%nat -> returns i s (cgo t (ISetL e p)).
    Proof using All. intros Hs He Hp. destruct (sz_occ s p Hs Hp) as [o Ho]. eapply returns_step; [st; rewrite Ho; reflexivity|]. apply r_linkL; [apply sized_occ, Hs|exact He]. Qed.
    Lemma r_cntL s e p : sized s -> (e < n)%nat -> (p < n)%nat -> returns i s (cgo t (ICntL e p)).
    Proof using All. intros Hs He Hp. eapply returns_step; [st; reflexivity|]. apply r_setL; assumption. Qed.
    Lemma r_offL s e p : sized s -> (e < n)%nat -> (p < n)%nat -> returns i s (cgo t (IOffL e p)).
    Proof using All. intros Hs He Hp. destruct (sz_off s p Hs Hp) as [o Ho]. eapply returns_step; [st; rewrite Ho; reflexivity|]. apply r_cntL; [apply sized_off, Hs|exact He|exact Hp]. Qed.
    Lemma r_conL s e p : sized s -> (e < n)%nat -> (p < n)%nat -> returns i s (cgo t (IConL e p)).
    Proof using All. intros Hs He Hp. destruct (sz_values s p Hs Hp) as [o Ho]. eapply returns_step; [st; rewrite Ho; reflexivity|]. apply r_offL; [apply sized_value, Hs|exact He|exact Hp]. Qed.
    Lemma r_full s : clamp_size (Z.of_nat E) (q_c (c_ex s)) = 0 -> returns i s (cgo t UFullCheck).
    Proof using All.
      intros Hz. destruct (c_count s =? Z.of_nat (length (c_occ s))) eqn:Ef.
      - eexists _, _, _, _. split; [exact Ep|]. apply solo_one. st. rewrite Ef. reflexivity.
      - eapply (returns_step i s _ s UEmptyCheck); [st; rewrite Ef; reflexivity|]. eexists _, _, _, _. split; [exact Ep|]. apply solo_one. st. rewrite Hz. reflexivity.
    Qed.
  End call.

  (** *** the pop from the excess list *)
  Lemma pop_knows s ls G F i t e q : cinv s ls G F -> ls !! i = Some t -> c_pc t = IPop e q ->
    exists v rest, c_prog t = CInsert v :: rest /\ q_prog q = [QPop KPopBack] /\ q_log q = [] /\ (e < n)%nat /\ tok E q.
  Proof using All.
    intros I Hi Epc. pose proof (ci_tl _ _ _ _ _ _ _ _ _ _ I t (elem_of_list_lookup_2 _ _ _ Hi)) as [[T0 T1] _].
    destruct (c_prog t) as [|op rest] eqn:Ep; [congruence|].
    destruct (B cf_bucket M0 s ls G F I (bkt (tkey kf op))) as [g Hg]; [apply (bucket_of_bkt hash keq bc E keq_refl keq_sym keq_trans Hhash Hbc HE Hmax)|].
    specialize (T1 g Hg). rewrite Epc in T1. destruct op as [v|k|k]; [|contradiction..]. cbn in T1. destruct T1 as (Hr & Eq & El). exists v, rest. split; [reflexivity|]. split; [exact Eq|]. split; [exact El|]. split.
    - destruct Hr as (_ & _ & ->). exact (B cf_node_range M0 s ls G F I _ g _ Hg (lend_elem _ _)).
    - apply (i_tok _ _ _ _ _ _ (ci_vec _ _ _ _ _ _ _ _ _ _ I)). apply elem_of_list_fmap. exists t. split; [unfold proj; rewrite Epc; reflexivity|eapply elem_of_list_lookup_2; exact Hi].
  Qed.
  Lemma pop_step s ls G F i t e q x1 q1 : cinv s ls G F -> ls !! i = Some t -> c_pc t = IPop e q -> qstep (vctl E) i (c_ex s) q = Some (x1, q1) ->
    exists t1, step i s t = Some (put_ex s x1, t1) /\ ((q_prog q1 = [QPop KPopBack] /\ t1 = cgo t (IPop e q1)) \/
      (q_prog q1 = [] /\ ((exists p, t1 = cgo t (IConL e p)) \/ (t1 = cgo t (IUnlL e None) /\ forall y, last (q_log q1) <> Some (Popped y))))).
  Proof using All.
    intros I Hi Epc Hq. destruct (pop_knows s ls G F i t e q I Hi Epc) as (v & rest & Ep & Eq & El & He & Hok).
    destruct (B progress M0 s ls G F i t I Hi) as (s' & t' & Hs); [congruence|]. unfold ustep in Hs |- *. rewrite Ep, Epc in *.
    destruct (bucket_of hash bc (op_key kf (CInsert v))); [|discriminate]. rewrite Hq in *.
    destruct (qstep_pop E (vctl E) i (c_ex s) q x1 q1 KPopBack Hok Eq El Hq) as [[P1 P2]|(P1 & P2 & r & P3 & P4)]; rewrite P1 in *.
    - eexists. split; [reflexivity|]. left. auto.
    - rewrite P3 in *. cbn [last] in *. destruct r as [z|z| |].
      + destruct (P4 z eq_refl).
      + destruct (0 <=? z); [|discriminate]. eexists. split; [reflexivity|]. right. split; [reflexivity|]. left. eauto.
      + eexists. split; [reflexivity|]. right. split; [reflexivity|]. right. split; [reflexivity|]. discriminate.
      + eexists. split; [reflexivity|]. right. split; [reflexivity|]. right. split; [reflexivity|]. discriminate.
  Qed.
  Lemma pop_counter i (x : qshared Z Z) (q : qthread Z) x1 q1 : q_prog q = [QPop KPopBack] -> q_c x <= Z.of_nat E -> qstep (vctl E) i x q = Some (x1, q1) ->
    q_c x1 <= Z.of_nat E /\ (q_prog q1 = [] -> q_log q = [] -> tok E q -> (forall y, last (q_log q1) <> Some (Popped y)) -> clamp_size (Z.of_nat E) (q_c x1) = 0).
  Proof using All.
    intros Eq Hc Hs. unfold qstep in Hs. rewrite Eq in Hs.
    destruct (q_pc q) as [|m|y|y|y|y|y|y|y z|y r] eqn:Epc; cbn [kind_of] in Hs.
    - injection Hs as <- <-. split; [exact Hc|]. cbn. congruence.
    - destruct m as [|m]; cbn [vctl] in Hs.
      + destruct (clamp_size _ _ =? 0) eqn:Ez; injection Hs as <- <-; (split; [exact Hc|]); cbn; [lia|congruence].
      + unfold vctl in Hs. destruct ((0 <=? q_c x - 1) && (q_c x - 1 <? Z.of_nat E)) eqn:Ez; injection Hs as <- <-; cbn; (split; [lia|]); [congruence|]. intros _ _ _ _. unfold clamp_size. rewrite (proj2 (Z.ltb_lt _ 0)) by lia. reflexivity.
    - destruct (q_locks x !! y) as [[]|]; try discriminate; injection Hs as <- <-; (split; [exact Hc|]); cbn; congruence.
    - destruct (q_occ x !! y) as [[]|]; try discriminate; injection Hs as <- <-; (split; [exact Hc|]); cbn; congruence.
    - discriminate.
    - discriminate.
    - injection Hs as <- <-; (split; [exact Hc|]); cbn; congruence.
    - destruct (q_data x !! y) as [[]|]; try discriminate; injection Hs as <- <-; (split; [exact Hc|]); cbn; congruence.
    - injection Hs as <- <-; (split; [exact Hc|]); cbn; congruence.
    - destruct r as [r|]; injection Hs as <- <-; (split; [exact Hc|]); cbn; [|congruence]. intros _ El [_ Hok] HP. exfalso. rewrite El in HP. cbn in HP. rewrite Epc in Hok.
      destruct Hok as (_ & _ & Hok). destruct r as [z|z| |]; [destruct Hok as (k & r0 & E0); rewrite Eq in E0; discriminate|exact (HP z eq_refl)|contradiction..].
  Qed.
  Definition no_pop t : Prop := forall e q, c_pc t <> IPop e q.
  Lemma no_pop_proj t : no_pop t -> proj t = fresh_call [].
  Proof. unfold no_pop, proj. destruct (c_pc t); try reflexivity. intros H. destruct (H e q eq_refl). Qed.
  Lemma pop_solo s ls G F i t e q x' q' : cinv s ls G F -> ls !! i = Some t -> c_pc t = IPop e q -> UProgSpec.solo (qstep (vctl E)) i (c_ex s, q) (x', q') -> q_prog q' = [] ->
    exists s' pc', solo i (s, t) (s', cgo t pc') /\ same_lists s s' /\ c_locks s' = c_locks s /\
      ((exists p, pc' = IConL e p) \/ (pc' = IUnlL e None /\ (q_c (c_ex s) <= Z.of_nat E -> clamp_size (Z.of_nat E) (q_c (c_ex s')) = 0))).
  Proof using All.
    intros I Hi Epc R Hd. remember (c_ex s, q) as c eqn:Ec. remember (x', q') as c' eqn:Ec'. revert s ls G F t q I Hi Epc Ec. induction R as [c|c [x1 q1] c2 Hs R IH]; intros s ls G F t q I Hi Epc Ec.
    - rewrite Ec in Ec'. injection Ec' as <- <-. destruct (pop_knows s ls G F i t e q I Hi Epc) as (v & rest & Ep & Eq & _). congruence.
    - subst c. cbn in Hs. destruct (pop_knows s ls G F i t e q I Hi Epc) as (v & rest & Ep & Eq & El & _ & Hok).
      destruct (pop_step s ls G F i t e q x1 q1 I Hi Epc Hs) as (t1 & Hst1 & Hc).
      destruct Hc as [(Q1 & ->)|(Q1 & [[p ->]|[-> Hl]])].
      + destruct (B ustep_inv M0 s ls G F i t _ _ I Hi Hst1) as (G' & F' & I' & _).
        destruct (IH Ec' (put_ex s x1) (<[i := cgo t (IPop e q1)]> ls) G' F' (cgo t (IPop e q1)) q1 I') as (s' & pc' & R' & S' & L' & C').
        { apply list_lookup_insert. eapply lookup_lt_Some. exact Hi. } { reflexivity. } { reflexivity. }
        exists s', pc'. split; [eapply solo_step; [exact Hst1|exact R']|]. split; [exact S'|]. split; [exact L'|]. destruct C' as [C'|[-> C']]; [left; exact C'|]. right. split; [reflexivity|].
        intros Hle. apply C'. cbn [put_ex c_ex]. apply (pop_counter i (c_ex s) q x1 q1 Eq Hle Hs).
      + exists (put_ex s x1), (IConL e p). split; [apply solo_one; exact Hst1|]. split; [repeat split|]. split; [reflexivity|]. left. eauto.
      + exists (put_ex s x1), (IUnlL e None). split; [apply solo_one; exact Hst1|]. split; [repeat split|]. split; [reflexivity|]. right. split; [reflexivity|].
        intros Hle. cbn [put_ex c_ex]. apply (pop_counter i (c_ex s) q x1 q1 Eq Hle Hs); assumption.
  Qed.
  Lemma pop_alone s ls G F i t e q : cinv s ls G F -> ls !! i = Some t -> c_pc t = IPop e q -> (forall j tj, j <> i -> ls !! j = Some tj -> no_pop tj) ->
    exists s' pc', solo i (s, t) (s', cgo t pc') /\ same_lists s s' /\ c_locks s' = c_locks s /\
      ((exists p, pc' = IConL e p) \/ (pc' = IUnlL e None /\ (q_c (c_ex s) <= Z.of_nat E -> clamp_size (Z.of_nat E) (q_c (c_ex s')) = 0))).
  Proof using All.
    intros I Hi Epc Ho. assert (Hpi : (proj <$> ls) !! i = Some q) by (rewrite list_lookup_fmap, Hi; cbn; unfold proj; rewrite Epc; reflexivity).
    destruct (can_finish (vctl E) E vm (fun _ => True) (vctl_ok E) _ (fun c p _ _ => vm_range c p) _ _ (ci_vec _ _ _ _ _ _ _ _ _ _ I)) as (x' & qs' & R & Hf).
    destruct (solo_of_reach (qstep (vctl E)) i _ _ _ _ q R Hpi) as (q' & R' & ->).
    { intros j q0 Hne Hj x. rewrite list_lookup_fmap in Hj. destruct (ls !! j) as [tj|] eqn:Hj'; [|discriminate]. injection Hj as <-. rewrite (no_pop_proj tj (Ho j tj Hne Hj')). reflexivity. }
    apply (pop_solo s ls G F i t e q x' q' I Hi Epc R'). apply (Hf q'). eapply elem_of_list_lookup_2. apply list_lookup_insert. eapply lookup_lt_Some. exact Hpi.
  Qed.

  (** *** all pops can complete *)
  Definition follows t (q : qthread Z) : Prop := proj t = q \/ (q_prog q = [] /\ no_pop t).
  Lemma pops_complete s ls G F : cinv s ls G F -> exists s' ls' G' F', Conc.reach step (s, ls) (s', ls') /\ cinv s' ls' G' F' /\ forall t, t ∈ ls' -> no_pop t.
  Proof using All.
    intros I.
    destruct (can_finish (vctl E) E vm (fun _ => True) (vctl_ok E) _ (fun c p _ _ => vm_range c p) _ _ (ci_vec _ _ _ _ _ _ _ _ _ _ I)) as (x' & qs' & R & Hf).
    assert (HL : forall c c', Conc.reach (qstep (vctl E)) c c' -> forall s ls G F, cinv s ls G F -> c_ex s = c.1 -> Forall2 follows ls c.2 ->
      exists s' ls' G' F', Conc.reach step (s, ls) (s', ls') /\ cinv s' ls' G' F' /\ Forall2 follows ls' c'.2).
    { clear s ls G F I x' qs' R Hf. intros c c' R. induction R as [c|c c1 c2 Hs R IH]; intros s ls G F I Ex HF; [exists s, ls, G, F; split; [apply rtc_refl|auto]|].
      inversion Hs as [x qs i q x1 q1 Hi Hq]; subst. cbn [fst snd] in *. destruct (Forall2_lookup_r _ _ _ _ _ HF Hi) as (t & Ht & Hfo).
      assert (Hpop : exists e, c_pc t = IPop e q).
      { destruct Hfo as [Hp|[Hp _]]; [|unfold qstep in Hq; rewrite Hp in Hq; discriminate]. unfold proj in Hp. destruct (c_pc t) eqn:Epc; subst q; try (unfold qstep in Hq; cbn in Hq; discriminate). eauto. }
      destruct Hpop as [e Epc]. rewrite <- Ex in Hq. destruct (pop_step s ls G F i t e q x1 q1 I Ht Epc Hq) as (t1 & Hst1 & Hc).
      destruct (B ustep_inv M0 s ls G F i t _ _ I Ht Hst1) as (G' & F' & I' & _).
      destruct (IH (put_ex s x1) (<[i := t1]> ls) G' F' I' eq_refl) as (s' & ls' & G2 & F2 & R' & I2 & H2).
      { apply Forall2_insert; [exact HF|]. destruct Hc as [(Q1 & ->)|(Q1 & [[p ->]|[-> _]])]; [left; reflexivity|right; split; [exact Q1|intros ? ? H; discriminate]..]. }
      exists s', ls', G2, F2. split; [|auto]. eapply rtc_l; [econstructor; [exact Ht|exact Hst1]|exact R']. }
    destruct (HL _ _ R s ls G F I eq_refl) as (s' & ls' & G' & F' & R' & I' & HF).
    { cbn [snd]. apply Forall2_fmap_r. apply Forall_Forall2_diag. apply Forall_forall. intros t _. left. reflexivity. }
    exists s', ls', G', F'. split; [exact R'|]. split; [exact I'|]. intros t Ht. apply elem_of_list_lookup in Ht as [j Hj]. destruct (Forall2_lookup_l _ _ _ _ _ HF Hj) as (q & Hq & Hfo).
    destruct Hfo as [Hp|[_ Hp]]; [|exact Hp]. intros e q0 Epc. destruct (pop_knows s' ls' G' F' j t e q0 I' Hj Epc) as (v & rest & _ & Eq & _).
    unfold proj in Hp. rewrite Epc in Hp. subst q0. destruct (Hf q (elem_of_list_lookup_2 _ _ _ Hq)) as [Hn _]. congruence.
  Qed.

  (** *** attempts *)
  Lemma cgo_id t : cgo t (c_pc t) = t. Proof. destruct t; reflexivity. Qed.
  Lemma cgo_pc t pc : c_pc t = pc -> cgo t pc = t. Proof. intros <-. apply cgo_id. Qed.
  Definition others ls i (P : cthread K V -> Prop) : Prop := forall j tj, j <> i -> ls !! j = Some tj -> P tj.
  Lemma others_insert ls i P t' : others ls i P -> others (<[i := t']> ls) i P.
  Proof. intros H j tj Hne Hj. rewrite list_lookup_insert_ne in Hj by congruence. eapply H; eauto. Qed.
  Lemma over_via s ls G F i t s' pc' : cinv s ls G F -> ls !! i = Some t -> solo i (s, t) (s', cgo t pc') ->
    (forall G' F', cinv s' (<[i := cgo t pc']> ls) G' F' -> (<[i := cgo t pc']> ls) !! i = Some (cgo t pc') -> over i s' (cgo t pc')) -> over i s t.
  Proof using All.
    intros I Hi R H. destruct (B reach_cinv M0 s ls G F _ _ I (solo_reach _ _ _ _ _ _ _ R Hi)) as (G' & F' & I' & _). eapply over_trans; [exact R|].
    eapply H; [exact I'|]. apply list_lookup_insert. eapply lookup_lt_Some. exact Hi.
  Qed.
  Lemma returns_via s ls G F i t s' pc' : cinv s ls G F -> ls !! i = Some t -> solo i (s, t) (s', cgo t pc') ->
    (forall G' F', cinv s' (<[i := cgo t pc']> ls) G' F' -> (<[i := cgo t pc']> ls) !! i = Some (cgo t pc') -> returns i s' (cgo t pc')) -> returns i s t.
  Proof using All.
    intros I Hi R H. destruct (B reach_cinv M0 s ls G F _ _ I (solo_reach _ _ _ _ _ _ _ R Hi)) as (G' & F' & I' & _). eapply returns_trans; [exact R|].
    eapply H; [exact I'|]. apply list_lookup_insert. eapply lookup_lt_Some. exact Hi.
  Qed.
  Lemma knows_of s ls G F i t v rest : cinv s ls G F -> ls !! i = Some t -> c_prog t = CInsert v :: rest -> exists g, G !! bkt (kf v) = Some g /\ knows_ins kf keq g (bkt (kf v)) (kf v) (c_pc t).
  Proof using All.
    intros I Hi Ep. pose proof (ci_tl _ _ _ _ _ _ _ _ _ _ I t (elem_of_list_lookup_2 _ _ _ Hi)) as [[T0 T1] _]. rewrite Ep in T1.
    destruct (B cf_bucket M0 s ls G F I (bkt (kf v))) as [g Hg]; [apply (bucket_of_bkt hash keq bc E keq_refl keq_sym keq_trans Hhash Hbc HE Hmax)|]. exists g. split; [exact Hg|]. exact (T1 g Hg).
  Qed.
  Lemma walk_facts s ls G F b g k c pc j : cinv s ls G F -> G !! b = Some g -> walk kf keq c g b k pc -> walking pc c j -> walkable s j /\ (pc = FVal c j -> exists v, c_values s !! j = Some (Some v)).
  Proof using All.
    intros I Hg Hw [-> |[-> |[-> | ->]]].
    - split; [|discriminate]. eapply walk_node; [exact I|exact Hg|]. eapply coming_node. apply Hw.
    - split; [eapply walk_node; [exact I|exact Hg|]; eapply coming_node; apply Hw|]. intros _. destruct (B walk_val M0 s ls G F b g k c j I Hg Hw) as (v & Hv & _). eauto.
    - split; [|discriminate]. eapply walk_node; [exact I|exact Hg|]. eapply seen_node. apply Hw.
    - split; [|discriminate]. eapply walk_node; [exact I|exact Hg|]. eapply seen_node. apply Hw.
  Qed.
  Lemma bucket_walkable s ls G F k : cinv s ls G F -> walkable s (bkt k).
  Proof using All.
    intros I. destruct (B cf_bucket M0 s ls G F I (bkt k)) as [g Hg]; [apply (bucket_of_bkt hash keq bc E keq_refl keq_sym keq_trans Hhash Hbc HE Hmax)|]. eapply walk_node; [exact I|exact Hg|left].
  Qed.
  Lemma walkable_range s j : sized s -> walkable s j -> (j < n)%nat.
  Proof. intros Hs W. destruct (walkable_occ s j W) as [o Ho]. apply lookup_lt_Some in Ho. destruct Hs as (_ & _ & Hs & _). lia. Qed.

  Section attempt.
    Context (i : nat) (v : V) (rest : list (cop K V)).
    Notation b := (bkt (kf v)).
    Lemma o_pop s ls G F t e q : cinv s ls G F -> ls !! i = Some t -> c_prog t = CInsert v :: rest -> others ls i no_pop -> c_pc t = IPop e q -> over i s t.
    Proof using All.
      intros I Hi Ep Ho Epc. destruct (pop_knows s ls G F i t e q I Hi Epc) as (_ & _ & _ & _ & _ & He & _). destruct (pop_alone s ls G F i t e q I Hi Epc Ho) as (s' & pc' & R & _ & _ & Hc).
      eapply over_via; [exact I|exact Hi|exact R|]. intros G' F' I' Hi'. pose proof (cinv_sized _ _ _ _ I') as Hs. destruct Hc as [[p ->]|[-> _]].
      - left. apply (r_conL i t v rest Ep s' e p Hs He). pose proof (B cf_hand_range M0 _ _ _ _ I' (cgo t (IConL e p)) p (elem_of_list_lookup_2 _ _ _ Hi') ltac:(left)). lia.
      - apply (r_unlL i t v rest Ep s' e None Hs He).
    Qed.
    Lemma o_findL s ls G F t e chk j : cinv s ls G F -> ls !! i = Some t -> c_prog t = CInsert v :: rest -> others ls i no_pop -> walking (c_pc t) (FInsL e chk) j -> over i s t.
    Proof using All.
      intros I Hi Ep Ho Hw. destruct (knows_of s ls G F i t v rest I Hi Ep) as (g & Hg & Hk).
      assert (Hk' : ctxok (FInsL e chk) g b /\ walk kf keq (FInsL e chk) g b (kf v) (c_pc t)) by (destruct Hw as [E0|[E0|[E0|E0]]]; rewrite E0 in *; exact Hk).
      destruct Hk' as [Hc Hk']. destruct (walk_facts s ls G F b g (kf v) _ _ j I Hg Hk' Hw) as [W Hv].
      assert (He : (e < n)%nat) by (destruct Hc as (_ & Hc & _); exact (B cf_node_range M0 s ls G F I _ g _ Hg Hc)).
      destruct (finds_any kf hash keq bc E step Hst i s t _ _ _ j W (Ha i t v rest Ep) Hw Hv) as [r R].
      destruct r as [p|]; cbn [after_find] in R.
      - eapply over_via; [exact I|exact Hi|exact R|]. intros G' F' I' _. apply (r_unlL i t v rest Ep s e None (cinv_sized _ _ _ _ I') He).
      - destruct (bool_decide (e = chk)).
        + eapply over_via; [exact I|exact Hi|exact R|]. intros G' F' I' Hi'. eapply (o_pop s _ G' F' (cgo t (IPop e pop_call))); [exact I'|exact Hi'|exact Ep|apply others_insert, Ho|reflexivity].
        + eapply over_via; [exact I|exact Hi|exact R|]. intros G' F' I' _. apply (r_unlL i t v rest Ep s e None (cinv_sized _ _ _ _ I') He).
    Qed.
    Lemma o_endL s ls G F t e j : cinv s ls G F -> ls !! i = Some t -> c_prog t = CInsert v :: rest -> others ls i no_pop -> c_pc t = EOff (EIns2 e) j \/ c_pc t = EAdd (EIns2 e) j -> over i s t.
    Proof using All.
      intros I Hi Ep Ho Hpc. destruct (knows_of s ls G F i t v rest I Hi Ep) as (g & Hg & Hk).
      assert (W : walkable s j) by (destruct Hpc as [E0|E0]; rewrite E0 in Hk; cbn in Hk; eapply walk_node; [exact I|exact Hg|tauto|exact I|exact Hg|tauto]).
      destruct (ends_any kf hash keq bc E step Hst i s t _ _ _ j W (Ha i t v rest Ep) Hpc) as (e' & R & _). cbn [after_end] in R.
      eapply over_via; [exact I|exact Hi|exact R|]. intros G' F' I' Hi'. eapply (o_findL s _ G' F' _ e e' b); [exact I'|exact Hi'|exact Ep|apply others_insert, Ho|left; reflexivity].
    Qed.
    Lemma o_findB s ls G F t j : cinv s ls G F -> ls !! i = Some t -> c_prog t = CInsert v :: rest -> walking (c_pc t) FInsB j -> over i s t.
    Proof using All.
      intros I Hi Ep Hw. destruct (knows_of s ls G F i t v rest I Hi Ep) as (g & Hg & Hk).
      assert (Hk' : walk kf keq FInsB g b (kf v) (c_pc t)) by (destruct Hw as [E0|[E0|[E0|E0]]]; rewrite E0 in *; apply Hk).
      destruct (walk_facts s ls G F b g (kf v) _ _ j I Hg Hk' Hw) as [W Hv]. destruct (finds_any kf hash keq bc E step Hst i s t _ _ _ j W (Ha i t v rest Ep) Hw Hv) as [r R].
      pose proof (cinv_sized _ _ _ _ I) as Hs. destruct r as [p|]; cbn [after_find] in R; (eapply over_trans; [exact R|]); [apply (r_unlB i t v rest Ep s None Hs)|apply (r_occB i t v rest Ep s Hs)].
    Qed.
    (** a thread that holds a lock gives it back *)
    Lemma o_holder s ls G F t : cinv s ls G F -> ls !! i = Some t -> c_prog t = CInsert v :: rest -> others ls i no_pop -> lock_of t <> None -> over i s t.
    Proof using All.
      intros I Hi Ep Ho Hl. destruct (knows_of s ls G F i t v rest I Hi Ep) as (g & Hg & Hk). pose proof (cinv_sized _ _ _ _ I) as Hs.
      assert (Hnode : forall p, p ∈ b :: gpos g -> (p < n)%nat) by (intros p Hp; exact (B cf_node_range M0 s ls G F I _ g p Hg Hp)).
      assert (Hhand : forall p, p ∈ hand t -> (p < n)%nat) by (intros p Hp; pose proof (B cf_hand_range M0 s ls G F I t p (elem_of_list_lookup_2 _ _ _ Hi) Hp); lia).
      unfold UConcProofs.lock_of in Hl. unfold hand in Hhand. destruct (c_pc t) as [| | |c j|c j|c j|c j|c j|c j|c j pr|c j pr| | | | | | |r|e|e q|e p|e p|e p|e p|e p|e r|p|p|p|p|p ok|p q|p q|p|p q|p q|p q o|p q o|p q|p q|p q|p q x|p q ok|q ok] eqn:Epc; try congruence; cbn [knows_ins] in Hk; try contradiction.
      - destruct c; try congruence; [eapply (o_findB s ls G F t j)|eapply (o_findL s ls G F t _ _ j)]; eauto; rewrite Epc; left; reflexivity.
      - destruct c; try congruence; [eapply (o_findB s ls G F t j)|eapply (o_findL s ls G F t _ _ j)]; eauto; rewrite Epc; right; left; reflexivity.
      - destruct c; try congruence; [eapply (o_findB s ls G F t j)|eapply (o_findL s ls G F t _ _ j)]; eauto; rewrite Epc; right; right; left; reflexivity.
      - destruct c; try congruence; [eapply (o_findB s ls G F t j)|eapply (o_findL s ls G F t _ _ j)]; eauto; rewrite Epc; right; right; right; reflexivity.
      - destruct c; try congruence. eapply (o_endL s ls G F t _ j); eauto.
      - destruct c; try congruence. eapply (o_endL s ls G F t _ j); eauto.
      - rewrite <- (cgo_pc t _ Epc). apply (r_occB i t v rest Ep s Hs).
      - left. rewrite <- (cgo_pc t _ Epc). apply (r_conB i t v rest Ep s Hs).
      - left. rewrite <- (cgo_pc t _ Epc). apply (r_cntB i t v rest Ep s Hs).
      - left. rewrite <- (cgo_pc t _ Epc). apply (r_setB i t v rest Ep s Hs).
      - rewrite <- (cgo_pc t _ Epc). apply (r_unlB i t v rest Ep s _ Hs).
      - eapply (o_pop s ls G F t); eauto.
      - left. rewrite <- (cgo_pc t _ Epc). apply (r_conL i t v rest Ep s _ _ Hs); [apply Hnode; destruct Hk as (_ & _ & ->); apply lend_elem|apply Hhand; left].
      - left. rewrite <- (cgo_pc t _ Epc). apply (r_offL i t v rest Ep s _ _ Hs); [apply Hnode; destruct Hk as (_ & _ & ->); apply lend_elem|apply Hhand; left].
      - left. rewrite <- (cgo_pc t _ Epc). apply (r_cntL i t v rest Ep s _ _ Hs); [apply Hnode; destruct Hk as (_ & _ & ->); apply lend_elem|apply Hhand; left].
      - left. rewrite <- (cgo_pc t _ Epc). apply (r_setL i t v rest Ep s _ _ Hs); [apply Hnode; destruct Hk as (_ & _ & ->); apply lend_elem|apply Hhand; left].
      - left. rewrite <- (cgo_pc t _ Epc). apply (r_linkL i t v rest Ep s _ _ Hs); apply Hnode; destruct Hk as (_ & _ & ->); apply lend_elem.
      - rewrite <- (cgo_pc t _ Epc). apply (r_unlL i t v rest Ep s _ _ Hs). apply Hnode, Hk.
    Qed.

    (** *** no other thread holds a lock *)
    Notation free := (fun t => lock_of t = None).
    Lemma free_no_pop t : lock_of t = None -> no_pop t.
    Proof. intros H e q Epc. unfold UConcProofs.lock_of in H. rewrite Epc in H. discriminate. Qed.
    Lemma free_lock s ls G F t p : cinv s ls G F -> ls !! i = Some t -> others ls i free -> lock_of t = None -> (p < n)%nat -> c_locks s !! p = Some false.
    Proof using All.
      intros I Hi Ho Hl Hp. pose proof (ci_lock _ _ _ _ _ _ _ _ _ _ I p Hp) as H. rewrite sumZ_zero in H.
      - rewrite (lk_Some (c_locks s) p) by (rewrite (ci_ll _ _ _ _ _ _ _ _ _ _ I); exact Hp). destruct (lk (c_locks s) p); [discriminate|reflexivity].
      - intros t' Ht'. unfold holds_lock. apply elem_of_list_lookup in Ht' as [j Hj]. destruct (decide (j = i)) as [-> |Hne].
        + assert (t' = t) as -> by congruence. rewrite Hl. reflexivity.
        + rewrite (Ho j t' Hne Hj). reflexivity.
    Qed.
    Lemma others_free_pop ls : others ls i free -> others ls i no_pop.
    Proof. intros H j tj Hne Hj. apply free_no_pop. eapply H; eauto. Qed.

    Lemma Ebk : bucket_of hash bc (op_key kf (CInsert v : cop K V)) = Some b.
    Proof using All. apply (bucket_of_bkt hash keq bc E keq_refl keq_sym keq_trans Hhash Hbc HE Hmax (kf v)). Qed.
    Ltac st Ep := unfold ustep; cbn [c_prog c_pc cgo]; rewrite Ep, Ebk.
    Lemma o_lockB s ls G F t : cinv s ls G F -> ls !! i = Some t -> c_prog t = CInsert v :: rest -> others ls i free -> c_pc t = ILockB -> over i s t.
    Proof using All.
      intros I Hi Ep Ho Epc. assert (Hb : (b < n)%nat) by (pose proof (proj2 (bucket_of_bkt hash keq bc E keq_refl keq_sym keq_trans Hhash Hbc HE Hmax (kf v))); lia).
      pose proof (free_lock s ls G F t b I Hi Ho ltac:(unfold UConcProofs.lock_of; rewrite Epc; reflexivity) Hb) as Hl.
      eapply over_via; [exact I|exact Hi| |].
      { apply solo_one. rewrite <- (cgo_pc t _ Epc). st Ep. rewrite Hl. reflexivity. }
      intros G' F' I' Hi'. eapply (o_findB _ _ G' F' _ b I' Hi' Ep). left. reflexivity.
    Qed.
    Lemma o_lockL s ls G F t e : cinv s ls G F -> ls !! i = Some t -> c_prog t = CInsert v :: rest -> others ls i free -> c_pc t = ILockL e -> over i s t.
    Proof using All.
      intros I Hi Ep Ho Epc. destruct (knows_of s ls G F i t v rest I Hi Ep) as (g & Hg & Hk). rewrite Epc in Hk. cbn in Hk.
      assert (He : (e < n)%nat) by (exact (B cf_node_range M0 s ls G F I _ g _ Hg (proj2 Hk))).
      pose proof (free_lock s ls G F t e I Hi Ho ltac:(unfold UConcProofs.lock_of; rewrite Epc; reflexivity) He) as Hl.
      eapply over_via; [exact I|exact Hi| |].
      { apply solo_one. rewrite <- (cgo_pc t _ Epc). st Ep. rewrite Hl. reflexivity. }
      intros G' F' I' Hi'. eapply (o_endL _ _ G' F' _ e b I' Hi' Ep); [apply others_insert, others_free_pop, Ho|]. left. reflexivity.
    Qed.
    Lemma o_end1 s ls G F t j : cinv s ls G F -> ls !! i = Some t -> c_prog t = CInsert v :: rest -> others ls i free -> c_pc t = EOff EIns1 j \/ c_pc t = EAdd EIns1 j -> over i s t.
    Proof using All.
      intros I Hi Ep Ho Hpc. destruct (knows_of s ls G F i t v rest I Hi Ep) as (g & Hg & Hk).
      assert (W : walkable s j) by (destruct Hpc as [E0|E0]; rewrite E0 in Hk; cbn in Hk; eapply walk_node; [exact I|exact Hg|tauto|exact I|exact Hg|tauto]).
      destruct (ends_any kf hash keq bc E step Hst i s t _ _ _ j W (Ha i t v rest Ep) Hpc) as (e' & R & _). cbn [after_end] in R.
      eapply over_via; [exact I|exact Hi|exact R|]. intros G' F' I' Hi'. eapply (o_lockL s _ G' F' _ e'); [exact I'|exact Hi'|exact Ep|apply others_insert, Ho|reflexivity].
    Qed.
    Lemma o_occ s ls G F t : cinv s ls G F -> ls !! i = Some t -> c_prog t = CInsert v :: rest -> others ls i free -> c_pc t = IOcc -> over i s t.
    Proof using All.
      intros I Hi Ep Ho Epc. pose proof (cinv_sized _ _ _ _ I) as Hs. assert (Hb : (b < n)%nat) by (pose proof (proj2 (bucket_of_bkt hash keq bc E keq_refl keq_sym keq_trans Hhash Hbc HE Hmax (kf v))); lia).
      destruct (sz_occ s b Hs Hb) as [o Eo]. eapply (over_via s ls G F i t s (if o then EOff EIns1 b else ILockB)); [exact I|exact Hi| |].
      { apply solo_one. rewrite <- (cgo_pc t _ Epc). st Ep. rewrite Eo. reflexivity. }
      intros G' F' I' Hi'. destruct o; [eapply (o_end1 s _ G' F' _ b)|eapply (o_lockB s _ G' F')]; [exact I'|exact Hi'|exact Ep|apply others_insert, Ho| |exact I'|exact Hi'|exact Ep|apply others_insert, Ho|reflexivity]. left. reflexivity.
    Qed.
    Lemma o_find1 s ls G F t j : cinv s ls G F -> ls !! i = Some t -> c_prog t = CInsert v :: rest -> others ls i free -> walking (c_pc t) FIns1 j -> over i s t.
    Proof using All.
      intros I Hi Ep Ho Hw. destruct (knows_of s ls G F i t v rest I Hi Ep) as (g & Hg & Hk).
      assert (Hk' : walk kf keq FIns1 g b (kf v) (c_pc t)) by (destruct Hw as [E0|[E0|[E0|E0]]]; rewrite E0 in *; apply Hk).
      destruct (walk_facts s ls G F b g (kf v) _ _ j I Hg Hk' Hw) as [W Hv]. destruct (finds_any kf hash keq bc E step Hst i s t _ _ _ j W (Ha i t v rest Ep) Hw Hv) as [r R].
      destruct r as [p|]; cbn [after_find] in R; [left; eexists _, _, _, _; split; [exact Ep|exact R]|].
      eapply over_via; [exact I|exact Hi|exact R|]. intros G' F' I' Hi'. eapply (o_occ s _ G' F'); [exact I'|exact Hi'|exact Ep|apply others_insert, Ho|reflexivity].
    Qed.
    (** from the head of the loop: the call returns *)
    Lemma o_fresh s ls G F t : cinv s ls G F -> q_c (c_ex s) <= Z.of_nat E -> ls !! i = Some t -> c_prog t = CInsert v :: rest -> others ls i free -> c_pc t = UFullCheck -> returns i s t.
    Proof using All.
      intros I HqE Hi Ep Ho Epc. pose proof (cinv_sized _ _ _ _ I) as Hs. assert (Hb : (b < n)%nat) by (pose proof (proj2 (bucket_of_bkt hash keq bc E keq_refl keq_sym keq_trans Hhash Hbc HE Hmax (kf v))); lia).
      assert (Hfree : forall p, (p < n)%nat -> c_locks s !! p = Some false) by (intros p Hp; exact (free_lock s ls G F t p I Hi Ho ltac:(unfold UConcProofs.lock_of; rewrite Epc; reflexivity) Hp)).
      pose proof (bucket_walkable s ls G F (kf v) I) as W. pose proof (Ha i t v rest Ep) as Hat.
      destruct (finds_ex kf hash keq bc E step Hst s (kf v) b W) as (r & Hr & _). destruct (ends_ex kf hash keq bc E step Hst s b W) as (e & He & We).
      pose proof (walkable_range s e Hs We) as Hen.
      destruct (c_count s =? Z.of_nat (length (c_occ s))) eqn:Ef.
      { eexists _, _, _, _. split; [exact Ep|]. apply solo_one. rewrite <- (cgo_pc t _ Epc). st Ep. rewrite Ef. reflexivity. }
      assert (R1 : solo i (s, t) (s, cgo t UEmptyCheck)) by (apply solo_one; rewrite <- (cgo_pc t _ Epc) at 1; st Ep; rewrite Ef; reflexivity).
      destruct (clamp_size (Z.of_nat E) (q_c (c_ex s)) =? 0) eqn:Ez.
      { eexists _, _, _, _. split; [exact Ep|]. eapply solo_trans; [exact R1|]. apply solo_one. st Ep. rewrite Ez. reflexivity. }
      assert (R2 : solo i (s, t) (s, after_find t (CInsert v) b FIns1 r)).
      { eapply solo_trans; [exact R1|]. eapply solo_step; [st Ep; rewrite Ez; reflexivity|]. apply (Hr i s t (CInsert v) b FIns1); [apply same_refl|exact Hat|reflexivity]. }
      destruct r as [p|]; cbn [after_find] in R2; [eexists _, _, _, _; split; [exact Ep|exact R2]|].
      destruct (sz_occ s b Hs Hb) as [o Eo]. destruct o.
      - (* excess list *)
        set (s1 := put_lock s e true).
        assert (R3 : solo i (s, t) (s1, cgo t (IPop e pop_call))).
        { eapply solo_trans; [exact R2|]. eapply solo_step; [st Ep; rewrite Eo; reflexivity|]. eapply solo_trans; [apply (He i s t (CInsert v) b EIns1); [apply same_refl|exact Hat]|]. cbn [after_end].
          eapply solo_step; [st Ep; rewrite (Hfree e Hen); reflexivity|]. fold s1. eapply solo_trans; [apply (He i s1 t (CInsert v) b (EIns2 e)); [apply same_lock|exact Hat]|]. cbn [after_end].
          eapply solo_trans; [apply (Hr i s1 t (CInsert v) b (FInsL e e)); [apply same_lock|exact Hat|reflexivity]|]. cbn [after_find]. rewrite bool_decide_true by reflexivity. apply rtc_refl. }
        eapply (returns_via s ls G F i t s1); [exact I|exact Hi|exact R3|]. intros G' F' I' Hi'.
        destruct (pop_alone s1 _ G' F' i _ e pop_call I' Hi' eq_refl (others_insert _ _ _ _ (others_free_pop ls Ho))) as (s2 & pc' & R4 & _ & Lk & Hc).
        eapply (returns_via s1 _ G' F' i (cgo t (IPop e pop_call)) s2 pc'); [exact I'|exact Hi'|exact R4|]. intros G2 F2 I2 Hi2. pose proof (cinv_sized _ _ _ _ I2) as Hs2. change (cgo (cgo t (IPop e pop_call)) pc') with (cgo t pc') in *.
        destruct Hc as [[p ->]|[-> Hz]].
        + apply (r_conL i t v rest Ep s2 e p Hs2 Hen). pose proof (B cf_hand_range M0 _ _ _ _ I2 (cgo t (IConL e p)) p (elem_of_list_lookup_2 _ _ _ Hi2) ltac:(left)). lia.
        + destruct (sz_locks s2 e Hs2 Hen) as [o2 Eo2]. eapply (returns_step i s2 _ (put_lock s2 e false) UFullCheck); [st Ep; rewrite Eo2; reflexivity|].
          apply (r_full i t v rest Ep). apply Hz. exact HqE.
      - (* bucket *)
        set (s1 := put_lock s b true).
        assert (R3 : solo i (s, t) (s1, cgo t IOccB)).
        { eapply solo_trans; [exact R2|]. eapply solo_step; [st Ep; rewrite Eo; reflexivity|]. eapply solo_step; [st Ep; rewrite (Hfree b Hb); reflexivity|]. fold s1.
          apply (Hr i s1 t (CInsert v) b FInsB); [apply same_lock|exact Hat|reflexivity]. }
        eapply returns_trans; [exact R3|]. eapply (returns_step i s1 _ s1 IConB); [st Ep; change (c_occ s1) with (c_occ s); rewrite Eo; reflexivity|]. apply (r_conB i t v rest Ep). apply sized_lock, Hs.
    Qed.
  End attempt.

  (** *** all calls *)
  Notation free := (fun t => lock_of t = None).
  Lemma no_pop_ex i s t s' t' : no_pop t -> (forall p q x, c_pc t <> XPush p q x) -> step i s t = Some (s', t') -> c_ex s' = c_ex s.
  Proof.
    intros Hn Hx H. unfold ustep in H. destruct (c_prog t) as [|op rest]; [discriminate|]. destruct (bucket_of hash bc (op_key kf op)) as [b|]; [|discriminate].
    destruct (c_pc t) eqn:Epc; try (destruct (Hn _ _ Epc)); try (destruct (Hx _ _ _ eq_refl)); repeat case_match; try discriminate; injection H as <- <-; reflexivity.
  Qed.
  Lemma no_push s ls G F i t p q x : cinv s ls G F -> ls !! i = Some t -> c_pc t <> XPush p q x.
  Proof using All.
    intros I Hi Epc. pose proof (ci_tl _ _ _ _ _ _ _ _ _ _ I t (elem_of_list_lookup_2 _ _ _ Hi)) as [[T0 T1] _]. destruct (c_prog t) as [|op rest] eqn:Ep; [congruence|].
    destruct (B cf_bucket M0 s ls G F I (bkt (tkey kf op))) as [g Hg]; [apply (bucket_of_bkt hash keq bc E keq_refl keq_sym keq_trans Hhash Hbc HE Hmax)|].
    specialize (T1 g Hg). rewrite Epc in T1. destruct op; exact T1.
  Qed.
  Lemma excess_le s ls G F i t s' t' : cinv s ls G F -> ls !! i = Some t -> step i s t = Some (s', t') -> q_c (c_ex s) <= Z.of_nat E -> q_c (c_ex s') <= Z.of_nat E.
  Proof using All.
    intros I Hi Hs Hle. assert (Hc : no_pop t \/ exists e q, c_pc t = IPop e q) by (unfold no_pop; destruct (c_pc t); try (left; discriminate); right; eauto).
    destruct Hc as [Hn|(e & q & Epc)].
    - rewrite (no_pop_ex i s t s' t' Hn); [exact Hle| |exact Hs]. intros p q x. eapply no_push; [exact I|exact Hi].
    - destruct (pop_knows s ls G F i t e q I Hi Epc) as (v & rest & Ep & Eq & El & _ & Hok).
      assert (Hpi : (proj <$> ls) !! i = Some q) by (rewrite list_lookup_fmap, Hi; cbn; unfold proj; rewrite Epc; reflexivity).
      destruct (not_stuck (vctl E) E vm (fun _ => True) _ _ _ _ _ (ci_vec _ _ _ _ _ _ _ _ _ _ I) Hpi) as (x1 & q1 & Hq); [rewrite Eq; discriminate|].
      destruct (pop_step s ls G F i t e q x1 q1 I Hi Epc Hq) as (t1 & Hs1 & _). rewrite Hs in Hs1. injection Hs1 as -> _. cbn [put_ex c_ex]. apply (pop_counter i (c_ex s) q x1 q1 Eq Hle Hq).
  Qed.
  Definition good s ls : Prop := (exists G F, cinv s ls G F) /\ q_c (c_ex s) <= Z.of_nat E.
  Lemma good_reach s ls s' ls' : good s ls -> Conc.reach step (s, ls) (s', ls') -> good s' ls'.
  Proof using All.
    intros H R. pose (P := fun c : cshared V * list (cthread K V) => good c.1 c.2).
    assert (H' : P (s', ls')); [|exact H']. refine (invariant step P _ (s, ls) (s', ls') H R).
    intros c c' [(G & F & I) Hle] Hs. inversion Hs as [s0 ls0 i t s1 t1 Hi Hst1]; subst. cbn [fst snd] in *. split; [|eapply excess_le; eauto].
    destruct (B ustep_inv M0 _ _ G F i t _ _ I Hi Hst1) as (G' & F' & I' & _). exists G', F'. exact I'.
  Qed.
  Lemma call_returns s ls i t : good s ls -> ls !! i = Some t -> others ls i free -> lock_of t = None -> c_prog t <> [] -> returns i s t.
  Proof using All.
    intros Hg Hi Ho Hl Hne. destruct (c_prog t) as [|op rest] eqn:Ep; [congruence|]. clear Hne. destruct Hg as [(G & F & I) Hle].
    pose proof (bucket_of_bkt hash keq bc E keq_refl keq_sym keq_trans Hhash Hbc HE Hmax (op_key kf op)) as [Eb Hb].
    assert (Hat : at_call t op (bkt (op_key kf op))) by (split; [eauto|exact Eb]).
    pose proof (ci_tl _ _ _ _ _ _ _ _ _ _ I t (elem_of_list_lookup_2 _ _ _ Hi)) as [[T0 T1] _]. rewrite Ep in T0, T1. unfold tkey in T1.
    destruct (B cf_bucket M0 s ls G F I _ Hb) as [g Hg]. specialize (T1 g Hg).
    destruct op as [v|k|k]; [|destruct (T0 (CErase k) ltac:(left))|].
    - assert (Hov : over i s t).
      { unfold UConcProofs.lock_of in Hl. destruct (c_pc t) as [| | |c j|c j|c j|c j|c j|c j|c j pr|c j pr| | | | | | |r|e|e q|e p|e p|e p|e p|e p|e r|p|p|p|p|p ok|p q|p q|p|p q|p q|p q o|p q o|p q|p q|p q|p q x|p q ok|q ok] eqn:Epc; try discriminate; cbn [knows_ins] in T1; try contradiction.
        - right. exists s. apply solo_one. rewrite <- (cgo_pc t _ Epc) at 1. unfold ustep; cbn [c_prog c_pc cgo]; rewrite Ep, Eb. reflexivity.
        - right. exists s. rewrite (cgo_pc t _ Epc). apply rtc_refl.
        - destruct (clamp_size (Z.of_nat E) (q_c (c_ex s)) =? 0) eqn:Ez.
          + left. eexists _, _, _, _. split; [exact Ep|]. apply solo_one. rewrite <- (cgo_pc t _ Epc) at 1. unfold ustep; cbn [c_prog c_pc cgo]; rewrite Ep, Eb, Ez. reflexivity.
          + eapply (over_via s ls G F i t s (FOcc FIns1 (bkt (kf v)))); [exact I|exact Hi| |].
            { apply solo_one. rewrite <- (cgo_pc t _ Epc) at 1. unfold ustep; cbn [c_prog c_pc cgo]; rewrite Ep, Eb, Ez. reflexivity. }
            intros G' F' I' Hi'. eapply (o_find1 i v rest s _ G' F'); [exact I'|exact Hi'|exact Ep|apply others_insert, Ho|left; reflexivity].
        - destruct c; try discriminate; try (exfalso; exact (proj1 T1)). eapply (o_find1 i v rest s ls G F t j I Hi Ep Ho). rewrite Epc. left. reflexivity.
        - destruct c; try discriminate; try (exfalso; exact (proj1 T1)). eapply (o_find1 i v rest s ls G F t j I Hi Ep Ho). rewrite Epc. right; left. reflexivity.
        - destruct c; try discriminate; try (exfalso; exact (proj1 T1)). eapply (o_find1 i v rest s ls G F t j I Hi Ep Ho). rewrite Epc. right; right; left. reflexivity.
        - destruct c; try discriminate; try (exfalso; exact (proj1 T1)). eapply (o_find1 i v rest s ls G F t j I Hi Ep Ho). rewrite Epc. right; right; right. reflexivity.
        - destruct c; try discriminate. eapply (o_end1 i v rest s ls G F t j I Hi Ep Ho). left. exact Epc.
        - destruct c; try discriminate. eapply (o_end1 i v rest s ls G F t j I Hi Ep Ho). right. exact Epc.
        - exact (o_occ i v rest s ls G F t I Hi Ep Ho Epc).
        - exact (o_lockB i v rest s ls G F t I Hi Ep Ho Epc).
        - exact (o_lockL i v rest s ls G F t e I Hi Ep Ho Epc). }
      destruct Hov as [H|(s' & R)]; [exact H|]. pose proof (solo_reach _ _ _ _ _ _ _ R Hi) as RR.
      destruct (good_reach s ls s' _ (conj (ex_intro _ G (ex_intro _ F I)) Hle) RR) as [(G' & F' & I') Hle'].
      eapply returns_trans; [exact R|]. eapply (o_fresh i v rest s' _ G' F'); [exact I'|exact Hle'|apply list_lookup_insert; eapply lookup_lt_Some; exact Hi|exact Ep|apply others_insert, Ho|reflexivity].
    - assert (Hfw : forall j, walking (c_pc t) FUser j -> walk kf keq FUser g (bkt k) k (c_pc t) -> returns i s t).
      { intros j Hw Hk. destruct (walk_facts s ls G F _ g k FUser _ j I Hg Hk Hw) as [W Hv]. destruct (finds_any kf hash keq bc E step Hst i s t _ _ _ j W Hat Hw Hv) as [r R].
        eexists _, _, _, _. split; [exact Ep|exact R]. }
      cbn [op_key] in *. destruct (c_pc t) eqn:Epc; cbn [knows_find] in T1; try contradiction; try (destruct c; try contradiction).
      + destruct (finds_ex kf hash keq bc E step Hst s k (bkt k) (bucket_walkable s ls G F k I)) as (r & Hr & _). eexists _, _, _, _. split; [exact Ep|].
        eapply solo_step; [rewrite <- (cgo_pc t _ Epc) at 1; unfold ustep; cbn [c_prog c_pc cgo op_key]; rewrite Ep; cbn [op_key]; rewrite Eb; reflexivity|].
        apply (Hr i s t (CFind k) (bkt k) FUser); [apply same_refl|exact Hat|reflexivity].
      + apply (Hfw i0); [left; reflexivity|exact T1].
      + apply (Hfw i0); [right; left; reflexivity|exact T1].
      + apply (Hfw i0); [right; right; left; reflexivity|exact T1].
      + apply (Hfw i0); [right; right; right; reflexivity|exact T1].
  Qed.
  Lemma free_finish t op r : lock_of (cfinish t op r) = None. Proof. reflexivity. Qed.
  Lemma all_free s ls : good s ls -> (forall t, t ∈ ls -> no_pop t) -> exists s' ls', Conc.reach step (s, ls) (s', ls') /\ good s' ls' /\ forall t, t ∈ ls' -> lock_of t = None.
  Proof using All.
    intros Hg Hn. destruct (one_by_one step (fun s ls => good s ls /\ forall t, t ∈ ls -> no_pop t) (fun t => lock_of t = None)) with (s := s) (ls := ls) as (s' & ls' & R & [I' _] & Q); [|auto|eauto].
    clear s ls Hg Hn. intros s ls i t [Hg Hn] Hi. destruct (lock_of t) as [p|] eqn:El.
    - pose proof Hg as [(G & F & I) Hle]. assert (Hex : exists s' t', solo i (s, t) (s', t') /\ lock_of t' = None).
      { pose proof (ci_tl _ _ _ _ _ _ _ _ _ _ I t (elem_of_list_lookup_2 _ _ _ Hi)) as [[T0 T1] _]. destruct (c_prog t) as [|op rest] eqn:Ep; [unfold UConcProofs.lock_of in El; rewrite T1 in El; discriminate|].
        destruct op as [v|k|k]; [|destruct (T0 (CErase k) ltac:(left))|].
        - destruct (o_holder i v rest s ls G F t I Hi Ep) as [(s' & op & r & rest' & _ & R)|(s' & R)].
          { intros j tj _ Hj. apply Hn. eapply elem_of_list_lookup_2. exact Hj. } { congruence. }
          + exists s', (cfinish t op r). auto.
          + exists s', (cgo t UFullCheck). auto.
        - destruct (B cf_bucket M0 s ls G F I (bkt (tkey kf (CFind k : cop K V)))) as [g Hgg]; [apply (bucket_of_bkt hash keq bc E keq_refl keq_sym keq_trans Hhash Hbc HE Hmax)|].
          specialize (T1 g Hgg). unfold UConcProofs.lock_of in El. destruct (c_pc t); try discriminate; try contradiction; destruct c; try discriminate; contradiction. }
      destruct Hex as (s' & t' & R & Hl). pose proof (solo_reach _ _ _ _ _ _ _ R Hi) as RR. exists s', t'. split; [exact RR|]. split; [|exact Hl]. split; [eapply good_reach; [exact Hg|exact RR]|].
      intros t0 Ht0. apply elem_of_list_lookup in Ht0 as [j Hj]. apply list_lookup_insert_Some in Hj as [(_ & <- & _)|[_ Hj]]; [apply free_no_pop; exact Hl|apply Hn; eapply elem_of_list_lookup_2; exact Hj].
    - exists s, t. rewrite list_insert_id by exact Hi. split; [apply rtc_refl|]. auto.
  Qed.
  Lemma all_return m : forall s ls, sumZ (fun t => Z.of_nat (length (c_prog t))) ls <= Z.of_nat m -> good s ls -> (forall t, t ∈ ls -> lock_of t = None) ->
    exists s' ls', Conc.reach step (s, ls) (s', ls') /\ all_returned ls'.
  Proof using All.
    induction m as [|m IH]; intros s ls Hm Hg Hf.
    - exists s, ls. split; [apply rtc_refl|]. intros t Ht. assert (Ep : c_prog t = []).
      { apply elem_of_list_lookup in Ht as [j Hj]. pose proof (sumZ_ge_elem (fun t => Z.of_nat (length (c_prog t))) ls j t ltac:(intros; apply Nat2Z.is_nonneg) Hj) as H. cbn beta in H. destruct (c_prog t); [reflexivity|]. cbn [length] in H. lia. }
      split; [exact Ep|]. destruct Hg as [(G & F & I) _]. pose proof (ci_tl _ _ _ _ _ _ _ _ _ _ I t Ht) as [[_ T1] _]. rewrite Ep in T1. exact T1.
    - destruct (decide (Exists (fun t => c_prog t <> []) ls)) as [Hex|Hnx].
      + apply Exists_exists in Hex as (t & Ht & Hne). apply elem_of_list_lookup in Ht as [i Hi].
        destruct (call_returns s ls i t Hg Hi) as (s' & op & r & rest & Ep & R); [intros j tj _ Hj; apply Hf; eapply elem_of_list_lookup_2; exact Hj|apply Hf; eapply elem_of_list_lookup_2; exact Hi|exact Hne|].
        pose proof (solo_reach _ _ _ _ _ _ _ R Hi) as RR.
        destruct (IH s' (<[i := cfinish t op r]> ls)) as (s2 & ls2 & R2 & A2).
        { rewrite (sumZ_insert _ _ _ _ _ Hi). cbn [cfinish c_prog]. rewrite Ep. cbn [tail length]. lia. }
        { eapply good_reach; [exact Hg|exact RR]. }
        { intros t0 Ht0. apply elem_of_list_lookup in Ht0 as [j Hj]. apply list_lookup_insert_Some in Hj as [(_ & <- & _)|[_ Hj]]; [reflexivity|apply Hf; eapply elem_of_list_lookup_2; exact Hj]. }
        exists s2, ls2. split; [etrans; [exact RR|exact R2]|exact A2].
      + exists s, ls. split; [apply rtc_refl|]. intros t Ht. assert (Ep : c_prog t = []).
        { destruct (c_prog t) eqn:Ep; [reflexivity|]. exfalso. apply Hnx. apply Exists_exists. exists t. split; [exact Ht|congruence]. }
        split; [exact Ep|]. destruct Hg as [(G & F & I) _]. pose proof (ci_tl _ _ _ _ _ _ _ _ _ _ I t Ht) as [[_ T1] _]. rewrite Ep in T1. exact T1.
  Qed.
  Lemma inserts_complete s ls : good s ls -> exists s' ls', Conc.reach step (s, ls) (s', ls') /\ all_returned ls'.
  Proof using All.
    intros Hg. pose proof Hg as [(G & F & I) _]. destruct (pops_complete s ls G F I) as (s1 & ls1 & G1 & F1 & R1 & I1 & Hn).
    destruct (all_free s1 ls1 (good_reach _ _ _ _ Hg R1) Hn) as (s2 & ls2 & R2 & Hg2 & Hf).
    destruct (all_return (Z.to_nat (sumZ (fun t => Z.of_nat (length (c_prog t))) ls2)) s2 ls2) as (s3 & ls3 & R3 & A3); [lia|exact Hg2|exact Hf|].
    exists s3, ls3. split; [|exact A3]. etrans; [exact R1|]. etrans; [exact R2|exact R3].
  Qed.
  (** a thread that runs alone while no other thread is in a call returns, wherever it is in its call *)
  Lemma alone_returns s ls i t : good s ls -> ls !! i = Some t -> others ls i (fun t => c_pc t = UIdle) -> c_prog t <> [] -> returns i s t.
  Proof using All.
    intros Hg Hi Hal Hne.
    assert (Hfree : others ls i free) by (intros j tj Hj Htj; unfold UConcProofs.lock_of; rewrite (Hal j tj Hj Htj); reflexivity).
    destruct (lock_of t) as [p|] eqn:El; [|exact (call_returns s ls i t Hg Hi Hfree El Hne)].
    pose proof Hg as [(G & F & I) Hle]. pose proof (ci_tl _ _ _ _ _ _ _ _ _ _ I t (elem_of_list_lookup_2 _ _ _ Hi)) as [[T0 T1] _].
    destruct (c_prog t) as [|op rest] eqn:Ep; [congruence|]. destruct op as [v|k|k]; [|destruct (T0 (CErase k) ltac:(left))|].
    - destruct (o_holder i v rest s ls G F t I Hi Ep) as [H|(s' & R)]; [intros j tj Hj Htj e q; rewrite (Hal j tj Hj Htj); discriminate|congruence|exact H|].
      pose proof (solo_reach _ _ _ _ _ _ _ R Hi) as RR. eapply returns_trans; [exact R|].
      apply (call_returns s' (<[i := cgo t UFullCheck]> ls) i); [eapply good_reach; [exact Hg|exact RR]|apply list_lookup_insert; eapply lookup_lt_Some; exact Hi|apply others_insert, Hfree|reflexivity|cbn [cgo c_prog]; congruence].
    - destruct (B cf_bucket M0 s ls G F I (bkt (tkey kf (CFind k : cop K V)))) as [g Hgg]; [apply (bucket_of_bkt hash keq bc E keq_refl keq_sym keq_trans Hhash Hbc HE Hmax)|].
      specialize (T1 g Hgg). unfold UConcProofs.lock_of in El. destruct (c_pc t); try discriminate; try contradiction; destruct c; try discriminate; contradiction.
  Qed.
End insprog.
