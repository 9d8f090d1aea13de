(** Calls of the unordered containers that run alone: the list walks terminate, and what they find depends on the lists only. *)
From Verif Require Import Base Conc SlotModel SlotSpec SlotProofs VectorModel VectorProofs VectorConcProofs UnorderedModel UnorderedSpec UnorderedProofs UConcModel UConcSpec UConcProofs UEraseModel UProgSpec.

Section solo.
  Context {S L : Type} (step : nat -> S -> L -> option (S * L)).
  Notation solo := (solo step).
  Lemma solo_one i s l s' l' : step i s l = Some (s', l') -> solo i (s, l) (s', l').
  Proof. intros H. apply rtc_once. exact H. Qed.
  Lemma solo_step i s l s' l' c : step i s l = Some (s', l') -> solo i (s', l') c -> solo i (s, l) c.
  Proof. intros H R. eapply rtc_l; [|exact R]. exact H. Qed.
  Lemma solo_trans i a b c : solo i a b -> solo i b c -> solo i a c.
  Proof. intros R1 R2. etrans; eassumption. Qed.
  Lemma solo_reach i s l s' l' ls : solo i (s, l) (s', l') -> ls !! i = Some l -> Conc.reach step (s, ls) (s', <[i := l']> ls).
  Proof.
    intros R. remember (s, l) as c eqn:E. remember (s', l') as c' eqn:E'. revert s l ls E. induction R as [c|c [s1 l1] c2 Hs R IH]; intros s l ls -> Hi.
    - injection E' as -> ->. rewrite list_insert_id by exact Hi. apply rtc_refl.
    - cbn in Hs. eapply rtc_l; [econstructor; [exact Hi|exact Hs]|]. specialize (IH E' s1 l1 (<[i := l1]> ls) eq_refl). rewrite list_lookup_insert in IH by (eapply lookup_lt_Some; exact Hi).
      rewrite list_insert_insert in IH. apply IH. reflexivity.
  Qed.
End solo.

Lemma next_self j : next_entry j 0 = Some j.
Proof. unfold next_entry. rewrite (proj2 (Z.leb_le _ _)) by lia. f_equal. lia. Qed.

Section walk.
  Context {K V : Type} (kf : V -> K) (hash : K -> Z) (keq : K -> K -> bool) (bc E : nat).
  Context (step : nat -> cshared V -> cthread K V -> option (cshared V * cthread K V)).
  Definition no_destroy (pc : upc) : Prop := match pc with XDesB _ | XDes _ _ => False | _ => True end.
  Hypothesis Hstep : forall i s t, no_destroy (c_pc t) -> step i s t = ustep kf hash keq bc E i s t.
  Implicit Types (s : cshared V) (t : cthread K V).
  Notation solo := (solo step).

  (** the walk from entry [i] ends *)
  Inductive walkable s : nat -> Prop :=
  | WEnd i (o : bool) : c_occ s !! i = Some o -> (o = true -> exists v, c_values s !! i = Some (Some v)) -> c_off s !! i = Some 0 -> walkable s i
  | WNext i (o : bool) z j : c_occ s !! i = Some o -> (o = true -> exists v, c_values s !! i = Some (Some v)) -> c_off s !! i = Some z -> z <> 0 -> next_entry i z = Some j -> walkable s j -> walkable s i.
  Definition same_lists s s' : Prop := c_occ s' = c_occ s /\ c_values s' = c_values s /\ c_off s' = c_off s.
  Lemma same_refl s : same_lists s s. Proof. repeat split. Qed.
  Lemma same_trans s1 s2 s3 : same_lists s1 s2 -> same_lists s2 s3 -> same_lists s1 s3.
  Proof. intros (A & B & C) (A' & B' & C'). repeat split; congruence. Qed.
  Lemma same_lock s p b : same_lists s (put_lock s p b). Proof. repeat split. Qed.
  Lemma same_lock' s p b : same_lists (put_lock s p b) s. Proof. repeat split. Qed.
  Lemma same_sym s s' : same_lists s s' -> same_lists s' s.
  Proof. intros (A & B & C). repeat split; congruence. Qed.
  Lemma walkable_same s s' i : same_lists s s' -> walkable s i -> walkable s' i.
  Proof. intros (A & B & C). induction 1 as [i o H1 H2 H3|i o z j H1 H2 H3 H4 H5 _ IH]; [eapply WEnd|eapply WNext]; rewrite ?A, ?B, ?C; eauto. Qed.
  Lemma walkable_occ s i : walkable s i -> exists o : bool, c_occ s !! i = Some o. Proof. intros []; eauto. Qed.
  Lemma walkable_off s i : walkable s i -> exists z : Z, c_off s !! i = Some z. Proof. intros []; eauto. Qed.

  Definition at_call t (op : cop K V) (b : nat) : Prop := (exists rest, c_prog t = op :: rest) /\ bucket_of hash bc (op_key kf op) = Some b.
  Lemma at_cgo t op b pc : at_call t op b -> at_call (cgo t pc) op b. Proof. auto. Qed.
  Ltac st := rewrite Hstep by exact Logic.I; unfold ustep; cbn [c_prog c_pc cgo].

  Section steps.
    Context (i : nat) (s : cshared V) (t : cthread K V) (op : cop K V) (b : nat).
    Hypothesis Ha : at_call t op b.
    Lemma st_occ c j (o : bool) : c_occ s !! j = Some o -> step i s (cgo t (FOcc c j)) = Some (s, cgo t (if o then FVal c j else FOff c j)).
    Proof using All. destruct Ha as [[rest Ep] Eb]. intros H. st. rewrite Ep, Eb, H. reflexivity. Qed.
    Lemma st_val c j v : c_values s !! j = Some (Some v) -> step i s (cgo t (FVal c j)) = Some (s, if keq (kf v) (op_key kf op) then after_find t op b c (Some j) else cgo t (FOff c j)).
    Proof using All. destruct Ha as [[rest Ep] Eb]. intros H. st. rewrite Ep, Eb, H. destruct (keq _ _); destruct c; reflexivity. Qed.
    Lemma st_off c j z : c_off s !! j = Some z -> step i s (cgo t (FOff c j)) = Some (s, if z =? 0 then after_find t op b c None else cgo t (FAdd c j)).
    Proof using All. destruct Ha as [[rest Ep] Eb]. intros H. st. rewrite Ep, Eb, H. destruct (_ =? _); destruct c; reflexivity. Qed.
    Lemma st_add c j z j' : c_off s !! j = Some z -> next_entry j z = Some j' -> step i s (cgo t (FAdd c j)) = Some (s, cgo t (FOcc c j')).
    Proof using All. destruct Ha as [[rest Ep] Eb]. intros H H'. st. rewrite Ep, Eb, H, H'. reflexivity. Qed.
    Lemma st_eoff c j z : c_off s !! j = Some z -> step i s (cgo t (EOff c j)) = Some (s, if z =? 0 then after_end t b c j else cgo t (EAdd c j)).
    Proof using All. destruct Ha as [[rest Ep] Eb]. intros H. st. rewrite Ep, Eb, H. destruct (_ =? _); destruct c; reflexivity. Qed.
    Lemma st_eadd c j z j' : c_off s !! j = Some z -> next_entry j z = Some j' -> step i s (cgo t (EAdd c j)) = Some (s, cgo t (EOff c j')).
    Proof using All. destruct Ha as [[rest Ep] Eb]. intros H H'. st. rewrite Ep, Eb, H, H'. reflexivity. Qed.
    Lemma st_poff c j prev z : c_off s !! j = Some z -> step i s (cgo t (POff c j prev)) = Some (s, if z =? 0 then after_prev t c prev else cgo t (PAdd c j prev)).
    Proof using All. destruct Ha as [[rest Ep] Eb]. intros H. st. rewrite Ep, Eb, H. destruct (_ =? _); destruct c; reflexivity. Qed.
    Lemma st_padd c j prev z j' : c_off s !! j = Some z -> next_entry j z = Some j' ->
      step i s (cgo t (PAdd c j prev)) = Some (s, if bool_decide (j' = entry_of c) then after_prev t c prev else cgo t (POff c j' j')).
    Proof using All. destruct Ha as [[rest Ep] Eb]. intros H H'. st. rewrite Ep, Eb, H, H'. destruct (bool_decide _); destruct c; reflexivity. Qed.
  End steps.

  (** find_impl 653-682 from entry [j]: the result is determined by the lists, the key and the entry *)
  Definition finds s (k : K) (j : nat) (r : option nat) : Prop := forall i s' t op b c, same_lists s s' -> at_call t op b -> op_key kf op = k ->
    solo i (s', cgo t (FOcc c j)) (s', after_find t op b c r).
  Definition finds_off s (k : K) (j : nat) (r : option nat) : Prop := forall i s' t op b c, same_lists s s' -> at_call t op b -> op_key kf op = k ->
    solo i (s', cgo t (FOff c j)) (s', after_find t op b c r).
  Definition hit_at s (k : K) (p : nat) : Prop := walkable s p /\ exists v, c_values s !! p = Some (Some v) /\ keq (kf v) k = true /\ c_occ s !! p = Some true.
  Lemma finds_ex s (k : K) j : walkable s j -> exists r, finds s k j r /\ forall p, r = Some p -> hit_at s k p.
  Proof using All.
    assert (HO : forall j r, finds_off s k j r -> (forall p, r = Some p -> hit_at s k p) -> forall o : bool, c_occ s !! j = Some o -> (o = true -> exists v, c_values s !! j = Some (Some v)) -> walkable s j ->
      exists r, finds s k j r /\ forall p, r = Some p -> hit_at s k p).
    { intros j0 r0 H0 H0p o Ho Hv W. destruct o.
      - destruct (Hv eq_refl) as [v Ev]. destruct (keq (kf v) k) eqn:Ek.
        + exists (Some j0). split; [|intros p [= <-]; split; [exact W|eauto]]. intros i s' t op b c (A & B & C) Ha Hop.
          eapply solo_step; [apply (st_occ i s' t op b Ha c j0 true); rewrite A; exact Ho|]. apply solo_one. rewrite (st_val i s' t op b Ha c j0 v) by (rewrite B; exact Ev). rewrite Hop, Ek. reflexivity.
        + exists r0. split; [|exact H0p]. intros i s' t op b c (A & B & C) Ha Hop.
          eapply solo_step; [apply (st_occ i s' t op b Ha c j0 true); rewrite A; exact Ho|]. eapply solo_step; [rewrite (st_val i s' t op b Ha c j0 v) by (rewrite B; exact Ev); rewrite Hop, Ek; reflexivity|].
          apply H0; [repeat split; assumption|exact Ha|exact Hop].
      - exists r0. split; [|exact H0p]. intros i s' t op b c (A & B & C) Ha Hop.
        eapply solo_step; [apply (st_occ i s' t op b Ha c j0 false); rewrite A; exact Ho|]. apply H0; [repeat split; assumption|exact Ha|exact Hop]. }
    intros W. induction W as [j o H1 H2 H3|j o z j' H1 H2 H3 H4 H5 W IH].
    - eapply (HO j None); [|discriminate|exact H1|exact H2|eapply WEnd; eauto]. intros i s' t op b c (A & B & C) Ha Hop. apply solo_one. rewrite (st_off i s' t op b Ha c j 0) by (rewrite C; exact H3). reflexivity.
    - destruct IH as (r & IH & Hr). eapply (HO j r); [|exact Hr|exact H1|exact H2|eapply WNext; eauto]. intros i s' t op b c (A & B & C) Ha Hop.
      eapply solo_step; [rewrite (st_off i s' t op b Ha c j z) by (rewrite C; exact H3); rewrite (proj2 (Z.eqb_neq _ _) H4); reflexivity|].
      eapply solo_step; [apply (st_add i s' t op b Ha c j z j'); [rewrite C; exact H3|exact H5]|]. apply IH; [repeat split; assumption|exact Ha|exact Hop].
  Qed.
  (** a walk in progress ends *)
  Lemma finds_off_ex i s t op b c j : walkable s j -> at_call t op b -> exists r, solo i (s, cgo t (FOff c j)) (s, after_find t op b c r) /\ forall p, r = Some p -> hit_at s (op_key kf op) p.
  Proof using All.
    intros W Ha. destruct W as [j o H1 H2 H3|j o z j' H1 H2 H3 H4 H5 W].
    - exists None. split; [|discriminate]. apply solo_one. rewrite (st_off i s t op b Ha c j 0) by exact H3. reflexivity.
    - destruct (finds_ex s (op_key kf op) j' W) as (r & Hr & Hp). exists r. split; [|exact Hp].
      eapply solo_step; [rewrite (st_off i s t op b Ha c j z) by exact H3; rewrite (proj2 (Z.eqb_neq _ _) H4); reflexivity|].
      eapply solo_step; [apply (st_add i s t op b Ha c j z j'); [exact H3|exact H5]|]. apply Hr; [apply same_refl|exact Ha|reflexivity].
  Qed.
  Lemma finds_add_ex i s t op b c j : walkable s j -> at_call t op b -> exists r, solo i (s, cgo t (FAdd c j)) (s, after_find t op b c r) /\ forall p, r = Some p -> hit_at s (op_key kf op) p.
  Proof using All.
    intros W Ha. pose proof W as W0. destruct W as [j o H1 H2 H3|j o z j' H1 H2 H3 H4 H5 W].
    - destruct (finds_ex s (op_key kf op) j W0) as (r & Hr & Hp). exists r. split; [|exact Hp].
      eapply solo_step; [apply (st_add i s t op b Ha c j 0 j); [exact H3|apply next_self]|]. apply Hr; [apply same_refl|exact Ha|reflexivity].
    - destruct (finds_ex s (op_key kf op) j' W) as (r & Hr & Hp). exists r. split; [|exact Hp].
      eapply solo_step; [apply (st_add i s t op b Ha c j z j'); [exact H3|exact H5]|]. apply Hr; [apply same_refl|exact Ha|reflexivity].
  Qed.
  (** the value read by a lookup that had found the entry occupied: in the entry a value may have been destroyed since only in its own slot *)
  Definition walking (pc : upc) (c : fctx) (j : nat) : Prop := pc = FOcc c j \/ pc = FVal c j \/ pc = FOff c j \/ pc = FAdd c j.
  Lemma finds_any i s t op b c j : walkable s j -> at_call t op b -> walking (c_pc t) c j -> (c_pc t = FVal c j -> exists v, c_values s !! j = Some (Some v)) ->
    exists r, solo i (s, t) (s, after_find t op b c r).
  Proof using All.
    intros W Ha Hw Hv. replace (s, t) with (s, cgo t (c_pc t)) by (destruct t; reflexivity). destruct Hw as [Epc|[Epc|[Epc|Epc]]]; rewrite Epc.
    - destruct (finds_ex s (op_key kf op) j W) as (r & Hr & Hp). exists r. apply Hr; [apply same_refl|exact Ha|reflexivity].
    - destruct (Hv Epc) as [v Ev]. destruct (keq (kf v) (op_key kf op)) eqn:Ek.
      + exists (Some j). apply solo_one. rewrite (st_val i s t op b Ha c j v Ev), Ek. reflexivity.
      + destruct (finds_off_ex i s t op b c j W Ha) as (r & Hr & _). exists r. eapply solo_step; [rewrite (st_val i s t op b Ha c j v Ev), Ek; reflexivity|exact Hr].
    - destruct (finds_off_ex i s t op b c j W Ha) as (r & Hr & _). eauto.
    - destruct (finds_add_ex i s t op b c j W Ha) as (r & Hr & _). eauto.
  Qed.

  (** find_linked_list_end 915-928 *)
  Definition ends s (j e : nat) : Prop := forall i s' t op b c, same_lists s s' -> at_call t op b -> solo i (s', cgo t (EOff c j)) (s', after_end t b c e).
  Lemma ends_ex s j : walkable s j -> exists e, ends s j e /\ walkable s e.
  Proof using All.
    induction 1 as [j o H1 H2 H3|j o z j' H1 H2 H3 H4 H5 W IH].
    - exists j. split; [|eapply WEnd; eauto]. intros i s' t op b c (A & B & C) Ha. apply solo_one. rewrite (st_eoff i s' t op b Ha c j 0) by (rewrite C; exact H3). reflexivity.
    - destruct IH as (e & IH & We). exists e. split; [|exact We]. intros i s' t op b c (A & B & C) Ha.
      eapply solo_step; [rewrite (st_eoff i s' t op b Ha c j z) by (rewrite C; exact H3); rewrite (proj2 (Z.eqb_neq _ _) H4); reflexivity|].
      eapply solo_step; [apply (st_eadd i s' t op b Ha c j z j'); [rewrite C; exact H3|exact H5]|]. apply (IH i s' t op b c); [repeat split; assumption|exact Ha].
  Qed.
  Lemma ends_any i s t op b c j : walkable s j -> at_call t op b -> c_pc t = EOff c j \/ c_pc t = EAdd c j -> exists e, solo i (s, t) (s, after_end t b c e) /\ walkable s e.
  Proof using All.
    intros W Ha Hpc. replace (s, t) with (s, cgo t (c_pc t)) by (destruct t; reflexivity). destruct (ends_ex s j W) as (e & He & We). destruct Hpc as [-> | ->].
    - exists e. split; [|exact We]. apply (He i s t op b c); [apply same_refl|exact Ha].
    - pose proof W as W0. destruct W as [j o H1 H2 H3|j o z j' H1 H2 H3 H4 H5 W].
      + exists e. split; [|exact We]. eapply solo_step; [apply (st_eadd i s t op b Ha c j 0 j); [exact H3|apply next_self]|]. apply (He i s t op b c); [apply same_refl|exact Ha].
      + destruct (ends_ex s j' W) as (e' & He' & We'). exists e'. split; [|exact We'].
        eapply solo_step; [apply (st_eadd i s t op b Ha c j z j'); [exact H3|exact H5]|]. apply (He' i s t op b c); [apply same_refl|exact Ha].
  Qed.

  (** find_previous_entry_position 930-956 *)
  Definition prevs s (p j q : nat) : Prop := forall i s' t op b c, same_lists s s' -> at_call t op b -> entry_of c = p -> solo i (s', cgo t (POff c j j)) (s', after_prev t c q).
  Lemma prevs_ex s p j : walkable s j -> j <> p -> exists q, prevs s p j q /\ walkable s q /\ q <> p.
  Proof using All.
    induction 1 as [j o H1 H2 H3|j o z j' H1 H2 H3 H4 H5 W IH]; intros Hne.
    - exists j. split; [|split; [eapply WEnd; eauto|exact Hne]]. intros i s' t op b c (A & B & C) Ha He. apply solo_one. rewrite (st_poff i s' t op b Ha c j j 0) by (rewrite C; exact H3). reflexivity.
    - destruct (decide (j' = p)) as [-> |Hn].
      + exists j. split; [|split; [eapply WNext; eauto|exact Hne]]. intros i s' t op b c (A & B & C) Ha He.
        eapply solo_step; [rewrite (st_poff i s' t op b Ha c j j z) by (rewrite C; exact H3); rewrite (proj2 (Z.eqb_neq _ _) H4); reflexivity|].
        apply solo_one. rewrite (st_padd i s' t op b Ha c j j z p) by (rewrite ?C; assumption). rewrite bool_decide_true by congruence. reflexivity.
      + destruct (IH Hn) as (q & Hq & Wq). exists q. split; [|exact Wq]. intros i s' t op b c (A & B & C) Ha He.
        eapply solo_step; [rewrite (st_poff i s' t op b Ha c j j z) by (rewrite C; exact H3); rewrite (proj2 (Z.eqb_neq _ _) H4); reflexivity|].
        eapply solo_step; [rewrite (st_padd i s' t op b Ha c j j z j') by (rewrite ?C; assumption); rewrite bool_decide_false by congruence; reflexivity|].
        apply (Hq i s' t op b c); [repeat split; assumption|exact Ha|exact He].
  Qed.
  (** ... from the middle, also at the entry itself *)
  Lemma prevs_off i s t op b c j prev : walkable s j -> at_call t op b -> walkable s prev -> exists q, solo i (s, cgo t (POff c j prev)) (s, after_prev t c q) /\ walkable s q.
  Proof using All.
    intros W Ha Wp. revert prev Wp. induction W as [j o H1 H2 H3|j o z j' H1 H2 H3 H4 H5 W IH]; intros prev Wp.
    - exists prev. split; [|exact Wp]. apply solo_one. rewrite (st_poff i s t op b Ha c j prev 0) by exact H3. reflexivity.
    - destruct (decide (j' = entry_of c)) as [He|Hn].
      + exists prev. split; [|exact Wp].
        eapply solo_step; [rewrite (st_poff i s t op b Ha c j prev z) by exact H3; rewrite (proj2 (Z.eqb_neq _ _) H4); reflexivity|].
        apply solo_one. rewrite (st_padd i s t op b Ha c j prev z j') by assumption. rewrite bool_decide_true by exact He. reflexivity.
      + destruct (IH j' W) as (q & Hq & Wq). exists q. split; [|exact Wq].
        eapply solo_step; [rewrite (st_poff i s t op b Ha c j prev z) by exact H3; rewrite (proj2 (Z.eqb_neq _ _) H4); reflexivity|].
        eapply solo_step; [rewrite (st_padd i s t op b Ha c j prev z j') by assumption; rewrite bool_decide_false by exact Hn; reflexivity|exact Hq].
  Qed.
  Lemma prevs_any i s t op b c j prev : walkable s j -> at_call t op b -> walkable s prev -> c_pc t = POff c j prev \/ c_pc t = PAdd c j prev -> exists q, solo i (s, t) (s, after_prev t c q) /\ walkable s q.
  Proof using All.
    intros W Ha Wp Hpc. replace (s, t) with (s, cgo t (c_pc t)) by (destruct t; reflexivity). destruct Hpc as [-> | ->]; [apply (prevs_off i s t op b c j prev W Ha Wp)|].
    pose proof W as W0. destruct W as [j o H1 H2 H3|j o z j' H1 H2 H3 H4 H5 W].
    - destruct (decide (j = entry_of c)) as [He|Hn].
      + exists prev. split; [|exact Wp]. apply solo_one. rewrite (st_padd i s t op b Ha c j prev 0 j) by (try assumption; apply next_self). rewrite bool_decide_true by exact He. reflexivity.
      + destruct (prevs_off i s t op b c j j W0 Ha W0) as (q & Hq & Wq). exists q. split; [|exact Wq].
        eapply solo_step; [rewrite (st_padd i s t op b Ha c j prev 0 j) by (try assumption; apply next_self); rewrite bool_decide_false by exact Hn; reflexivity|exact Hq].
    - destruct (decide (j' = entry_of c)) as [He|Hn].
      + exists prev. split; [|exact Wp]. apply solo_one. rewrite (st_padd i s t op b Ha c j prev z j') by assumption. rewrite bool_decide_true by exact He. reflexivity.
      + destruct (prevs_off i s t op b c j' j' W Ha W) as (q & Hq & Wq). exists q. split; [|exact Wq].
        eapply solo_step; [rewrite (st_padd i s t op b Ha c j prev z j') by assumption; rewrite bool_decide_false by exact Hn; reflexivity|exact Hq].
  Qed.
End walk.

(** a run in which only one thread can move *)
Lemma solo_of_reach {S L} (step : nat -> S -> L -> option (S * L)) i s ls s' ls' l : Conc.reach step (s, ls) (s', ls') -> ls !! i = Some l ->
  (forall j l0, j <> i -> ls !! j = Some l0 -> forall s, step j s l0 = None) -> exists l', solo step i (s, l) (s', l') /\ ls' = <[i := l']> ls.
Proof.
  intros R. remember (s, ls) as c eqn:E. remember (s', ls') as c' eqn:E'. revert s ls l E. induction R as [c|c c1 c2 Hs R IH]; intros s ls l -> Hi Ho.
  - injection E' as -> ->. exists l. split; [apply rtc_refl|]. rewrite list_insert_id by exact Hi. reflexivity.
  - inversion Hs as [s0 ls0 j l0 s1 l1 Hj Hst]; subst. destruct (decide (j = i)) as [-> |Hne]; [|rewrite (Ho j l0 Hne Hj) in Hst; discriminate].
    rewrite Hi in Hj. injection Hj as ->.
    assert (Hlt : (i < length ls)%nat) by (eapply lookup_lt_Some; exact Hi).
    destruct (IH eq_refl s1 (<[i := l1]> ls) l1 eq_refl (list_lookup_insert _ _ _ Hlt)) as (l' & R' & El).
    { intros j l2 Hne Hj s2. rewrite list_lookup_insert_ne in Hj by congruence. eapply Ho; eauto. }
    exists l'. split; [eapply solo_step; [exact Hst|exact R']|]. rewrite El. apply list_insert_insert.
Qed.
(** all threads are brought to states with a property, one after the other *)
Lemma one_by_one {S L} (step : nat -> S -> L -> option (S * L)) (Inv : S -> list L -> Prop) (Q : L -> Prop) :
  (forall s ls i l, Inv s ls -> ls !! i = Some l -> exists s' l', Conc.reach step (s, ls) (s', <[i := l']> ls) /\ Inv s' (<[i := l']> ls) /\ Q l') ->
  forall s ls, Inv s ls -> exists s' ls', Conc.reach step (s, ls) (s', ls') /\ Inv s' ls' /\ forall l, l ∈ ls' -> Q l.
Proof.
  intros H s ls I. assert (HI : forall m, (m <= length ls)%nat -> exists s' ls', Conc.reach step (s, ls) (s', ls') /\ Inv s' ls' /\ length ls' = length ls /\ forall j l, (j < m)%nat -> ls' !! j = Some l -> Q l).
  { induction m as [|m IH]; intros Hm; [exists s, ls; repeat split; [apply rtc_refl|exact I|intros; lia]|].
    destruct IH as (s1 & ls1 & R1 & I1 & L1 & Q1); [lia|]. destruct (lookup_lt_is_Some_2 ls1 m) as [l Hl]; [lia|].
    destruct (H s1 ls1 m l I1 Hl) as (s2 & l2 & R2 & I2 & Q2). exists s2, (<[m := l2]> ls1). split; [etrans; eassumption|]. split; [exact I2|]. split; [rewrite insert_length; exact L1|].
    intros j l0 Hj Hl0. apply list_lookup_insert_Some in Hl0 as [(-> & <- & _)|[Hne Hl0]]; [exact Q2|]. apply (Q1 j l0); [lia|exact Hl0]. }
  destruct (HI (length ls) (le_n _)) as (s' & ls' & R & I' & L' & Q'). exists s', ls'. split; [exact R|]. split; [exact I'|].
  intros l Hl. apply elem_of_list_lookup in Hl as [j Hj]. apply (Q' j l); [|exact Hj]. rewrite <- L'. eapply lookup_lt_Some. exact Hj.
Qed.
