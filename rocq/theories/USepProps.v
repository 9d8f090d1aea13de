(** C78: kernels whose keys do not collide, with any number of threads that insert, erase and look keys up. *)
From Verif Require Import Base Conc SlotModel SlotSpec VectorModel UnorderedModel UnorderedSpec UConcModel UConcSpec UConcProps UEraseModel UEraseSpec UHistSpec UHistProofs UMixSpec UMixTop UMixProps UMix2Props UOneSpec UOneProps UProgSpec USepSpec USepProofs USepTop USepProg USepFind USepKern.

(** a container [u] that a history of phases [H] produced and that has an excess entry left, then kernels [lss] one after the other, each without
    collisions and each run to a state in which no call is running, which left the container in state [s]; value types with a trivial destructor *)
Definition after_separate {K V} (kf : V -> K) (hash : K -> Z) (keq : K -> K -> bool) (ord : nat -> list nat) (buckets excess fuel : nat)
    (H : list (phase K V)) (u : utab V) (lss : list (list (cthread K V))) (s : cshared V) : Prop :=
  key_equality keq /\ hash_respects keq hash /\ any_order ord /\ sizes_ok buckets excess /\ (2 <= fuel)%nat /\
  history kf hash keq ord fuel buckets excess H u /\ 0 < v_size (u_excess u) /\ separate_kernels kf hash keq buckets excess (shared_of u) lss s.
Ltac sep_hyps := intros * (Hk & Hh & Ho & Hs & Hf & HH & Hroom & HK); destruct (history_urep _ _ _ _ _ _ Hk Hh Ho Hs _ Hf _ _ HH) as (G0 & st0 & Ru);
  assert (HP : key_equality _ /\ hash_respects _ _ /\ sizes_ok _ _) by (split; [exact Hk|split; [exact Hh|exact Hs]]);
  pose proof (urep_srest _ _ _ _ _ HP _ _ _ Ru Hroom) as R0; pose proof (start_distinct _ _ _ _ _ HP _ _ _ Ru) as D0;
  destruct (kernels_srest _ _ _ _ _ HP _ _ _ HK R0 D0) as [R1 D1].

(** every access is inside the arrays and to a constructed value: no call is ever without a next step *)
Theorem C78_accesses_defined : forall (K V : Type) kf hash keq ord buckets excess fuel H (u : utab V) lss s1 (progs : list (list (cop K V))) s ls,
  after_separate kf hash keq ord buckets excess fuel H u lss s1 -> separate kf hash keq buckets s1 progs ->
  Conc.reach (estep kf hash keq buckets excess) (s1, c_start progs) (s, ls) ->
  forall i t, ls !! i = Some t -> c_prog t <> [] -> estep kf hash keq buckets excess i s t <> None.
Proof.
  sep_hyps. intros Hsep HR i t Hi Hp. apply reach_visited in HR as [past HV]. destruct (sinv_visited kf hash keq buckets excess HP progs s1 R1 Hsep past s ls HV) as (h & I & _).
  destruct (step_all kf hash keq buckets excess HP progs s1 R1 Hsep s ls h i t I Hi Hp) as (s' & t' & evl & -> & _). discriminate.
Qed.
(** the calls, lookups included, take effect one after the other on a set of values, each with exactly the result it would have alone, in an order [h]
    that has the calls of each thread in their order and that respects real time: for every earlier state of the run, the calls that had returned by then
    come before all calls that had not begun *)
Theorem C78_linearizable : forall (K V : Type) kf hash keq ord buckets excess fuel H (u : utab V) lss s1 (progs : list (list (cop K V))) past s ls,
  after_separate kf hash keq ord buckets excess fuel H u lss s1 -> separate kf hash keq buckets s1 progs ->
  visited (estep kf hash keq buckets excess) (s1, c_start progs) past (s, ls) ->
  exists h, set_calls kf keq (content_of s1) h (content_of s) /\ accounts_all ls h /\
    forall c1, c1 ∈ past -> exists ha hb, h = ha ++ hb /\ accounts_all c1.2 ha.
Proof.
  sep_hyps. intros Hsep HV. destruct (sinv_visited kf hash keq buckets excess HP progs s1 R1 Hsep past s ls HV) as (h & I & Hcut). exists h.
  split; [exact (s_run _ _ _ _ _ _ _ _ _ _ I)|]. split; [exact (sinv_accounts kf hash keq buckets excess progs s1 s ls h I)|exact Hcut].
Qed.
(** in no state of such a kernel are equal keys stored twice *)
Theorem C78_no_duplicate_key : forall (K V : Type) kf hash keq ord buckets excess fuel H (u : utab V) lss s1 (progs : list (list (cop K V))) s ls,
  after_separate kf hash keq ord buckets excess fuel H u lss s1 -> separate kf hash keq buckets s1 progs ->
  Conc.reach (estep kf hash keq buckets excess) (s1, c_start progs) (s, ls) ->
  forall p q v w, entry s p v -> entry s q w -> keq (kf v) (kf w) = true -> p = q.
Proof.
  sep_hyps. intros Hsep HR p q v w Hv Hw. apply reach_visited in HR as [past HV]. destruct (sinv_visited kf hash keq buckets excess HP progs s1 R1 Hsep past s ls HV) as (h & I & _).
  apply (distinct_calls kf hash keq buckets excess HP _ _ _ D1 (s_run _ _ _ _ _ _ _ _ _ _ I)); apply content_entry; assumption.
Qed.
(** every lookup that has returned was right at a state of the run during the lookup: the value it found was there, or no equal key was *)
Theorem C78_lookup_results : forall (K V : Type) kf hash keq ord buckets excess fuel H (u : utab V) lss s1 (progs : list (list (cop K V))) past s ls,
  after_separate kf hash keq ord buckets excess fuel H u lss s1 -> separate kf hash keq buckets s1 progs ->
  visited (estep kf hash keq buckets excess) (s1, c_start progs) past (s, ls) ->
  forall i t m k r, ls !! i = Some t -> c_log t !! m = Some (CFind k, RFound r) ->
  exists c1 t1, c1 ∈ past /\ c1.2 !! i = Some t1 /\ length (c_log t1) = m /\ c_pc t1 <> UIdle /\
    match r with Some p => exists v, entry c1.1 p v /\ keq (kf v) k = true | None => forall p v, entry c1.1 p v -> keq (kf v) k = false end.
Proof. sep_hyps. intros Hsep HV i t m k r Hi Hm. exact (proj1 (seen_visited kf hash keq buckets excess HP progs s1 R1 Hsep past s ls HV i t Hi) m k r Hm). Qed.
(** between such kernels: size() is the number of stored values, and every stored value can be reached from its bucket *)
Theorem C78_at_rest : forall (K V : Type) kf hash keq ord buckets excess fuel H (u : utab V) (lss : list (list (cthread K V))) s,
  after_separate kf hash keq ord buckets excess fuel H u lss s ->
  c_count s = Z.of_nat (length (stored_values s)) /\
  forall p v b, entry s p v -> bucket_of hash buckets (kf v) = Some b -> rtc (leads_to s) b p.
Proof.
  sep_hyps. destruct R1 as ((L1 & L2 & L3 & L4) & _ & Hv & Hin & Hc & _). split.
  - rewrite Hc. symmetry. apply (stored_sum kf excess s); [rewrite L1, L3; reflexivity|exact Hv].
  - intros p v b He Hb. rewrite (bk_bucket hash keq buckets excess HP) in Hb. injection Hb as <-. exact (Hin p v He).
Qed.
(** from every state that such a kernel can reach its threads can go on such that all their calls return *)
Theorem C78_can_complete : forall (K V : Type) kf hash keq ord buckets excess fuel H (u : utab V) lss s1 (progs : list (list (cop K V))) s ls,
  after_separate kf hash keq ord buckets excess fuel H u lss s1 -> separate kf hash keq buckets s1 progs ->
  Conc.reach (estep kf hash keq buckets excess) (s1, c_start progs) (s, ls) ->
  exists s' ls', Conc.reach (estep kf hash keq buckets excess) (s, ls) (s', ls') /\ all_returned ls'.
Proof.
  sep_hyps. intros Hsep HR. apply reach_visited in HR as [past HV]. destruct (sinv_visited kf hash keq buckets excess HP progs s1 R1 Hsep past s ls HV) as (h & I & _).
  exact (all_end kf hash keq buckets excess HP progs s1 R1 Hsep _ s ls h I (Nat.le_refl _)).
Qed.
(** a thread completes its call when it runs alone from any state of such a kernel in which the other threads are between calls or in calls with keys
    of other buckets: calls with different keys never block each other *)
Theorem C78_completes_alone : forall (K V : Type) kf hash keq ord buckets excess fuel H (u : utab V) lss s1 (progs : list (list (cop K V))) s ls,
  after_separate kf hash keq ord buckets excess fuel H u lss s1 -> separate kf hash keq buckets s1 progs ->
  Conc.reach (estep kf hash keq buckets excess) (s1, c_start progs) (s, ls) ->
  forall i t op rest, ls !! i = Some t -> c_prog t = op :: rest ->
  (forall j tj, ls !! j = Some tj -> j <> i -> c_pc tj = UIdle \/ exists opj restj, c_prog tj = opj :: restj /\ bucket_of hash buckets (op_key kf opj) <> bucket_of hash buckets (op_key kf op)) ->
  exists s' r, solo (estep kf hash keq buckets excess) i (s, t) (s', {| c_prog := rest; c_pc := UIdle; c_log := c_log t ++ [(op, r)] |}).
Proof.
  sep_hyps. intros Hsep HR i t op rest Hi Ep Hoth. apply reach_visited in HR as [past HV]. destruct (sinv_visited kf hash keq buckets excess HP progs s1 R1 Hsep past s ls HV) as (h & I & _).
  destruct (call_ends kf hash keq buckets excess HP progs s1 R1 Hsep (rank op (occb s (UnorderedProofs.bkt hash buckets (op_key kf op))) (c_pc t)) s ls h i t op rest I Hi Ep) as (s' & r & h' & HS & _); [|lia|].
  - intros j tj Hne Hj Hheld. destruct (Hoth j tj Hj Hne) as [Hidle|(opj & restj & Epj & Hb)].
    + unfold held in Hheld. rewrite Hidle in Hheld. destruct (c_prog tj); discriminate.
    + destruct (held_prog kf hash buckets tj _ Hheld) as (op' & rest' & Ep' & Hbk & _). rewrite Epj in Ep'. injection Ep' as <- <-. apply Hb. rewrite !(bk_bucket hash keq buckets excess HP). congruence.
  - exists s', r. unfold cfinish in HS. rewrite Ep in HS. exact HS.
Qed.
(** a program of such kernels never gets stuck: every further such kernel can be run to its end *)
Theorem C78_next_kernel : forall (K V : Type) (kf : V -> K) hash keq ord buckets excess fuel H (u : utab V) lss s1 (progs : list (list (cop K V))),
  after_separate kf hash keq ord buckets excess fuel H u lss s1 -> separate kf hash keq buckets s1 progs ->
  exists ls s2, after_separate kf hash keq ord buckets excess fuel H u (lss ++ [ls]) s2 /\ all_returned ls.
Proof.
  intros * HA Hsep. destruct (C78_can_complete K V kf hash keq ord buckets excess fuel H u lss s1 progs s1 (c_start progs) HA Hsep ltac:(apply rtc_refl)) as (s2 & ls & HR & Hall).
  exists ls, s2. split; [|exact Hall]. destruct HA as (A1 & A2 & A3 & A4 & A5 & A6 & A7 & A8). repeat (split; [assumption|]). eapply sk_then; [exact A8|exact Hsep|exact HR|]. intros t Ht. apply (Hall t Ht).
Qed.
Print Assumptions C78_accesses_defined.
Print Assumptions C78_linearizable.
Print Assumptions C78_no_duplicate_key.
Print Assumptions C78_lookup_results.
Print Assumptions C78_at_rest.
Print Assumptions C78_can_complete.
Print Assumptions C78_completes_alone.
Print Assumptions C78_next_kernel.

(** four buckets and four excess entries.  The container has 0 and 2 in the list 0 -> 7 of bucket 0, and 1 in bucket 2.  Five threads: 4 is inserted by thread 0 and
    erased by threads 1 and 2, 1 is inserted by thread 1 and erased by thread 0, 3 is inserted by threads 3 and 4.  Seen with all five in a call and three
    locks held, and at the end *)
Definition sex_hash (k : Z) : Z := k.
Definition sex_progs : list (list (cop Z Z)) := [[CInsert 4; CErase 1]; [CErase 4; CInsert 1]; [CErase 4; CFind 1]; [CInsert 3]; [CInsert 3; CFind 3]].
Definition sex_step := estep (V:=Z) (fun v => v) sex_hash Z.eqb 4 4.
Definition sex_u : option (utab Z) := match unordered_create (V:=Z) (fun n => seq 0 n) [] 4 4 with Ret u0 => match u_run (V:=Z) (fun v => v) sex_hash Z.eqb true (fun n => seq 0 n) 2 u0 [UInsert 0; UInsert 2; UInsert 1] with Ret (u, _) => Some u | _ => None end | _ => None end.
Definition sex_sched1 : list nat := sched_of [(14, 0); (5, 1); (3, 2); (9, 3); (3, 4); (3, 1); (8, 0)]%nat.
Definition sex_sched2 : list nat := sex_sched1 ++ sched_of [(2, 0); (2, 1); (3, 2); (5, 3); (5, 4); (13, 1); (4, 2); (1, 1); (2, 2)]%nat.
Lemma sex_makes i op : makes sex_progs i op -> (i, op) ∈ [(0%nat, CInsert 4); (0%nat, CErase 1); (1%nat, CErase 4); (1%nat, CInsert 1); (2%nat, CErase 4); (2%nat, CFind 1); (3%nat, CInsert 3); (4%nat, CInsert 3); (4%nat, CFind 3)].
Proof.
  intros (prog & H1 & H2). destruct i as [|[|[|[|[|i]]]]]; cbn in H1; try discriminate; injection H1 as <-; repeat (apply elem_of_cons in H2 as [-> |H2]; [repeat first [left|right]|]); inversion H2.
Qed.
Lemma sex_separate u : sex_u = Some u -> separate (V:=Z) (fun v => v) sex_hash Z.eqb 4 (shared_of u) sex_progs.
Proof.
  intros Hu. vm_compute in Hu. injection Hu as <-.
  assert (Hk : forall k, key_used (fun v => v) sex_progs k -> k = 4 /\ bucket_of sex_hash 4 k = Some 1%nat \/ k = 1 /\ bucket_of sex_hash 4 k = Some 2%nat \/ k = 3 /\ bucket_of sex_hash 4 k = Some 3%nat).
  { intros k (i & op & Hm & <-). apply sex_makes in Hm. repeat (apply elem_of_cons in Hm as [[= _ ->]|Hm]; [first [left; split; vm_compute; reflexivity|right; left; split; vm_compute; reflexivity|right; right; split; vm_compute; reflexivity]|]). inversion Hm. }
  split; [|split].
  - intros k b Hu Hb. destruct (Hk k Hu) as [[-> Hb']|[[-> Hb']|[-> Hb']]]; rewrite Hb in Hb'; injection Hb' as ->; (split; [reflexivity|]); intros v [Hv Ho]; cbn in Hv, Ho; try discriminate; injection Hv as <-; reflexivity.
  - intros k1 k2 H1 H2 Hb. destruct (Hk k1 H1) as [[-> Hb1]|[[-> Hb1]|[-> Hb1]]]; destruct (Hk k2 H2) as [[-> Hb2]|[[-> Hb2]|[-> Hb2]]]; first [reflexivity|exfalso; pose proof (eq_trans (eq_sym Hb1) (eq_trans Hb Hb2)) as Hx; discriminate Hx].
  - intros i j l v w k Hi Hj Hl Hvk Hwk. apply Z.eqb_eq in Hvk, Hwk. subst v w. apply sex_makes in Hi, Hj, Hl.
    repeat (apply elem_of_cons in Hl as [Hl|Hl]; [try discriminate; injection Hl as -> ->;
      repeat (apply elem_of_cons in Hi as [Hi|Hi]; [try discriminate; injection Hi as ->; repeat (apply elem_of_cons in Hj as [Hj|Hj]; [try discriminate; injection Hj as ->; reflexivity|]); inversion Hj|]); inversion Hi|]). inversion Hl.
Qed.
Example C78_ex : exists H u past s ls past2 s2 ls2,
  after_separate (V:=Z) (fun v => v) sex_hash Z.eqb (fun n => seq 0 n) 4 4 2 H u [] (shared_of u) /\ separate (V:=Z) (fun v => v) sex_hash Z.eqb 4 (shared_of u) sex_progs /\
  visited sex_step (shared_of u, c_start sex_progs) past (s, ls) /\ c_pc <$> ls = [XDesB 2; XDesB 1; XLockB 1; IOccB; FOcc FIns1 3] /\ c_locks s = [false; true; true; true; false; false; false; false] /\
  visited sex_step (shared_of u, c_start sex_progs) past2 (s2, ls2) /\ all_returned ls2 /\
  c_log <$> ls2 = [[(CInsert 4, RInserted 1); (CErase 1, RErased true)]; [(CErase 4, RErased true); (CInsert 1, RInserted 2)]; [(CErase 4, RErased false); (CFind 1, RFound (Some 2%nat))];
    [(CInsert 3, RInserted 3)]; [(CInsert 3, RNotInserted); (CFind 3, RFound (Some 3%nat))]] /\
  after_separate (V:=Z) (fun v => v) sex_hash Z.eqb (fun n => seq 0 n) 4 4 2 H u [ls2] s2 /\ stored_values (shared_of u) = [0; 1; 2] /\ stored_values s2 = [0; 1; 3; 2] /\ c_count s2 = 4.
Proof.
  assert (Hpre : key_equality Z.eqb /\ hash_respects Z.eqb sex_hash /\ any_order (fun n => seq 0 n) /\ sizes_ok 4 4 /\ (2 <= 2)%nat).
  { unfold key_equality, hash_respects, any_order, sizes_ok, INT_MAX. split; [split; [apply Z.eqb_refl|split; intros *; rewrite !Z.eqb_eq; congruence]|]. split; [intros a b; rewrite Z.eqb_eq; congruence|]. split; [reflexivity|lia]. }
  destruct Hpre as (P1 & P2 & P3 & P4 & P5).
  assert (Hu : exists H u, sex_u = Some u /\ history (V:=Z) (fun v => v) sex_hash Z.eqb (fun n => seq 0 n) 2 4 4 H u).
  { eexists _, _. split; [vm_compute; reflexivity|]. eapply then_phase; [eapply (created _ _ _ _ _ _ _ []); vm_compute; reflexivity|]; eapply (run_calls _ _ _ _ _ _ _ _ [UInsert 0; UInsert 2; UInsert 1]); [repeat constructor|vm_compute; reflexivity]. }
  destruct Hu as (H & u & Hu & HH). pose proof (sex_separate u Hu) as Hsep. vm_compute in Hu. injection Hu as <-. match type of HH with history _ _ _ _ _ _ _ _ ?x => set (u := x) in * end.
  assert (Hroom : 0 < v_size (u_excess u)) by (vm_compute; reflexivity).
  assert (V1 : exists r, states sex_step sex_sched1 [] (shared_of u, c_start sex_progs) = Some r /\ c_pc <$> r.2.2 = [XDesB 2; XDesB 1; XLockB 1; IOccB; FOcc FIns1 3] /\ c_locks r.2.1 = [false; true; true; true; false; false; false; false]) by (eexists; split; [vm_compute; reflexivity|split; vm_compute; reflexivity]).
  assert (V2 : exists r, states sex_step sex_sched2 [] (shared_of u, c_start sex_progs) = Some r /\ all_returned r.2.2 /\
    c_log <$> r.2.2 = [[(CInsert 4, RInserted 1); (CErase 1, RErased true)]; [(CErase 4, RErased true); (CInsert 1, RInserted 2)]; [(CErase 4, RErased false); (CFind 1, RFound (Some 2%nat))];
      [(CInsert 3, RInserted 3)]; [(CInsert 3, RNotInserted); (CFind 3, RFound (Some 3%nat))]] /\ stored_values r.2.1 = [0; 1; 3; 2] /\ c_count r.2.1 = 4).
  { eexists. split; [vm_compute; reflexivity|]. split; [|split; [|split]; vm_compute; reflexivity]. cbn [fst snd]. intros t Ht; repeat (apply elem_of_cons in Ht as [-> |Ht]; [split; reflexivity|]); inversion Ht. }
  destruct V1 as ([past1 [s1 ls1]] & V1 & R1 & R1'), V2 as ([past2 [s2 ls2]] & V2 & R2 & R3 & R4 & R5). apply (states_visited _ _ _ _ _ _ (visit_start _ _)) in V1, V2. cbn [fst snd] in *.
  exists H, u, past1, s1, ls1, past2, s2, ls2. split; [repeat (split; [assumption|]); constructor|]. repeat (split; [assumption|]).
  split; [|split; [vm_compute; reflexivity|split; assumption]]. repeat (split; [assumption|]).
  refine (sk_then _ _ _ _ _ _ [] _ _ _ _ (sk_none _ _ _ _ _ _) Hsep _ _); [apply reach_visited; eexists; exact V2|]. intros t Ht. apply (R2 t Ht).
Qed.
