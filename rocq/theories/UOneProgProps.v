(** C65 for kernels in which at most one thread erases, with any number of threads that insert and look keys up. *)
From Verif Require Import Base Conc SlotModel SlotSpec VectorModel UnorderedModel UnorderedSpec UConcModel UConcSpec UConcProps UEraseModel UEraseSpec UHistSpec UHistProofs UMixProps UMix2Props UProgSpec UOneSpec UOneTop UOneProps UOneProg UOneProg2.

(** from every state that such a kernel can reach, after any number of such kernels before it, its threads can go on such that all their calls return *)
Theorem C65_one_eraser_can_complete : forall (K V : Type) kf hash keq ord buckets excess fuel H (u : utab V) lss s1 ers (progs : list (list (cop K V))) s ls,
  after_kernels kf hash keq ord buckets excess fuel H u lss s1 -> one_erases ers progs ->
  Conc.reach (estep kf hash keq buckets excess) (s1, c_start progs) (s, ls) ->
  exists s' ls', Conc.reach (estep kf hash keq buckets excess) (s, ls) (s', ls') /\ all_returned ls'.
Proof. after_hyps. intros Hone HR. exact (one_complete kf hash keq buckets excess HP ers _ s ls (good_start kf hash keq buckets excess HP s1 ers progs s ls R1 Hone HR)). Qed.
(** a thread of such a kernel that runs alone ([solo], UProgSpec.v) while no other thread is in a call completes its call, from wherever it is in it *)
Theorem C65_one_eraser_completes_alone : forall (K V : Type) kf hash keq ord buckets excess fuel H (u : utab V) lss s1 ers (progs : list (list (cop K V))) s ls,
  after_kernels kf hash keq ord buckets excess fuel H u lss s1 -> one_erases ers progs ->
  Conc.reach (estep kf hash keq buckets excess) (s1, c_start progs) (s, ls) ->
  forall i t op rest, ls !! i = Some t -> c_prog t = op :: rest -> (forall j tj, ls !! j = Some tj -> j <> i -> c_pc tj = UIdle) ->
  exists s' r, solo (estep kf hash keq buckets excess) i (s, t) (s', {| c_prog := rest; c_pc := UIdle; c_log := c_log t ++ [(op, r)] |}).
Proof.
  after_hyps. intros Hone HR i t op rest Hi Ep Hal.
  destruct (one_alone kf hash keq buckets excess HP ers _ s ls i t (good_start kf hash keq buckets excess HP s1 ers progs s ls R1 Hone HR) Hi Hal ltac:(rewrite Ep; discriminate)) as (s' & op' & r & rest' & Ep' & HS).
  rewrite Ep in Ep'. injection Ep' as <- <-. exists s', r. unfold cfinish in HS. rewrite Ep in HS. exact HS.
Qed.
(** a program of kernels with one erasing thread each never gets stuck: every further such kernel can be run to its end *)
Theorem C65_one_eraser_next_kernel : forall (K V : Type) (kf : V -> K) hash keq ord buckets excess fuel H (u : utab V) lss s1 ers (progs : list (list (cop K V))),
  after_kernels kf hash keq ord buckets excess fuel H u lss s1 -> one_erases ers progs ->
  exists ls s2, after_kernels kf hash keq ord buckets excess fuel H u (lss ++ [ls]) s2 /\ all_returned ls.
Proof.
  intros * HA Hone. destruct (C65_one_eraser_can_complete K V kf hash keq ord buckets excess fuel H u lss s1 ers progs s1 (c_start progs) HA Hone ltac:(apply rtc_refl)) as (s2 & ls & HR & Hall).
  exists ls, s2. split; [|exact Hall]. destruct HA as (A1 & A2 & A3 & A4 & A5 & A6 & A7). repeat (split; [assumption|]). eapply then_kernel; [exact A7|exact Hone|exact HR|]. intros t Ht. apply (Hall t Ht).
Qed.
Print Assumptions C65_one_eraser_can_complete.
Print Assumptions C65_one_eraser_completes_alone.
Print Assumptions C65_one_eraser_next_kernel.

(** after one kernel with an erase and two inserts: a state of the next kernel in which the erase of 101 is in progress and holds a lock while the
    inserting and the searching thread are between their calls *)
Definition p1ex_sched2 : list nat := sched_of [(20, 0)]%nat.
Example C65_one_eraser_ex : exists H u ls1 s1 s ls t,
  after_kernels (V:=Z) (fun v => v) uex_hash Z.eqb (fun n => seq 0 n) 2 4 2 H u [ls1] s1 /\ inserted_values ls1 = [7; 101; 102] /\ erased_keys ls1 = [3; 2] /\
  one_erases 0 k1ex_progs2 /\ Conc.reach (mex_step 4) (s1, c_start k1ex_progs2) (s, ls) /\ ls !! 0%nat = Some t /\ c_prog t = [CErase 101] /\
  existsb (fun b => b) (c_locks s) = true /\ c_pc t <> UIdle /\ (forall j tj, ls !! j = Some tj -> j <> 0%nat -> c_pc tj = UIdle).
Proof.
  assert (Hpre : key_equality Z.eqb /\ hash_respects Z.eqb uex_hash /\ any_order (fun n => seq 0 n) /\ sizes_ok 2 4 /\ (2 <= 2)%nat).
  { unfold key_equality, hash_respects, any_order, sizes_ok, INT_MAX. split; [split; [apply Z.eqb_refl|split; intros *; rewrite !Z.eqb_eq; congruence]|]. split; [intros a b; rewrite Z.eqb_eq; congruence|]. split; [reflexivity|lia]. }
  destruct Hpre as (P1 & P2 & P3 & P4 & P5).
  assert (Hu : exists H u, oex_u = Some u /\ history (V:=Z) (fun v => v) uex_hash Z.eqb (fun n => seq 0 n) 2 2 4 H u).
  { eexists _, _. split; [vm_compute; reflexivity|]. eapply then_phase; [eapply (created _ _ _ _ _ _ _ []); vm_compute; reflexivity|]; eapply (run_calls _ _ _ _ _ _ _ _ [UInsert 1; UInsert 2; UInsert 3; UInsert 100]); [repeat constructor|vm_compute; reflexivity]. }
  destruct Hu as (H & u & Hu & HH). vm_compute in Hu. injection Hu as <-. match type of HH with history _ _ _ _ _ _ _ _ ?x => set (u := x) in * end.
  assert (Hone1 : one_erases 1 k1ex_progs).
  { intros i prog k H1 H2. destruct i as [|[|[|i]]]; cbn in H1; try discriminate; try reflexivity; injection H1 as <-; repeat (apply elem_of_cons in H2 as [H2|H2]; [discriminate|]); inversion H2. }
  assert (Hone2 : one_erases 0 k1ex_progs2).
  { intros i prog k H1 H2. destruct i as [|[|[|i]]]; cbn in H1; try discriminate; try reflexivity; injection H1 as <-; repeat (apply elem_of_cons in H2 as [H2|H2]; [discriminate|]); inversion H2. }
  assert (V1 : exists s1 ls1 s ls t, Conc.reach (mex_step 4) (shared_of u, c_start k1ex_progs) (s1, ls1) /\ c_quiescent ls1 /\
    inserted_values ls1 = [7; 101; 102] /\ erased_keys ls1 = [3; 2] /\
    Conc.reach (mex_step 4) (s1, c_start k1ex_progs2) (s, ls) /\ ls !! 0%nat = Some t /\ c_prog t = [CErase 101] /\
    existsb (fun b => b) (c_locks s) = true /\ c_pc t <> UIdle /\ (forall j tj, ls !! j = Some tj -> j <> 0%nat -> c_pc tj = UIdle)).
  { eexists _, _, _, _, _. split; [apply (run_reach _ k1ex_sched); vm_compute; reflexivity|].
    split; [intros t Ht; repeat (apply elem_of_cons in Ht as [-> |Ht]; [split; reflexivity|]); inversion Ht|].
    split; [vm_compute; reflexivity|]. split; [vm_compute; reflexivity|].
    split; [apply (run_reach _ p1ex_sched2); vm_compute; reflexivity|]. split; [reflexivity|]. split; [reflexivity|].
    split; [vm_compute; reflexivity|]. split; [discriminate|]. intros [|[|[|j]]] tj Hj Hne; [congruence|injection Hj as <-; reflexivity|injection Hj as <-; reflexivity|discriminate]. }
  destruct V1 as (s1 & ls1 & s & ls & t & A1 & A2 & A3 & A4 & A7 & A8 & A9 & A10 & A11 & A12). exists H, u, ls1, s1, s, ls, t.
  split; [repeat (split; [assumption|]); refine (then_kernel _ _ _ _ _ _ [] _ 1 _ _ _ (no_kernel _ _ _ _ _ _) Hone1 A1 A2)|].
  repeat (split; [assumption|]). exact A12.
Qed.
