(** C65: concurrent calls on unordered_map / unordered_set can always complete. *)
From Verif Require Import Base Conc SlotModel SlotSpec VectorModel UnorderedModel UnorderedSpec UnorderedProofs UConcModel UConcSpec UConcTop UConcProps UEraseModel UEraseSpec UHistSpec UHistProofs UEraseProps UHistProps UProgSpec UProgTop.

(** ** C65, kernels: from every state that a kernel of inserts and lookups, or of erases and lookups, can reach, its threads can go on such that
    all their calls return: no interleaving leads to a deadlock or leaves a lock taken for ever. *)
Theorem C65_inserts_can_complete : forall (K V : Type) kf hash keq opt ord buckets excess fuel (u : utab V) (progs : list (list (cop K V))) s ls,
  insert_find_run kf hash keq opt ord buckets excess fuel u progs s ls ->
  exists s' ls', Conc.reach (ustep kf hash keq buckets excess) (s, ls) (s', ls') /\ all_returned ls'.
Proof.
  intros * (Hk & Hh & Ho & Hs & Hf & (u0 & Hu) & Hp & R). apply (reachable_rep kf hash keq opt ord buckets excess fuel u0 u Hk Hh Ho Hs Hf) in Hu.
  exact (ins_complete kf hash keq opt ord buckets excess Hk Hh Ho Hs fuel Hf u progs s ls Hu Hp R).
Qed.
Theorem C65_erases_can_complete : forall (K V : Type) kf hash keq ord buckets excess fuel H (u : utab V) (progs : list (list (cop K V))) s ls,
  erase_find_run kf hash keq ord buckets excess fuel H u progs s ls ->
  exists s' ls', Conc.reach (estep kf hash keq buckets excess) (s, ls) (s', ls') /\ all_returned ls'.
Proof. run_hyps. exact (ers_complete kf hash keq true ord buckets excess Hk Hh Ho Hs fuel Hf u progs s ls HH Hp R). Qed.

(** ** C65, single calls: a thread that runs alone ([solo], UProgSpec.v) while no other thread is in a call completes its call, from wherever it
    is in it ([cfinish t op r]: the call [op] has returned [r]) *)
Theorem C65_insert_or_find_completes_alone : forall (K V : Type) kf hash keq opt ord buckets excess fuel (u : utab V) (progs : list (list (cop K V))) s ls,
  insert_find_run kf hash keq opt ord buckets excess fuel u progs s ls ->
  forall i t op rest, ls !! i = Some t -> c_prog t = op :: rest -> (forall j tj, ls !! j = Some tj -> j <> i -> c_pc tj = UIdle) ->
  exists s' r, solo (ustep kf hash keq buckets excess) i (s, t) (s', {| c_prog := rest; c_pc := UIdle; c_log := c_log t ++ [(op, r)] |}).
Proof.
  intros * (Hk & Hh & Ho & Hs & Hf & (u0 & Hu) & Hp & R) i t op rest Hi Ep Hal. apply (reachable_rep kf hash keq opt ord buckets excess fuel u0 u Hk Hh Ho Hs Hf) in Hu.
  destruct (ins_alone kf hash keq opt ord buckets excess Hk Hh Ho Hs fuel Hf u progs s ls Hu Hp R i t op rest Hi Hal Ep) as (s' & r & H).
  exists s', r. unfold cfinish in H. rewrite Ep in H. exact H.
Qed.
Theorem C65_erase_or_find_completes_alone : forall (K V : Type) kf hash keq ord buckets excess fuel H (u : utab V) (progs : list (list (cop K V))) s ls,
  erase_find_run kf hash keq ord buckets excess fuel H u progs s ls ->
  forall i t op rest, ls !! i = Some t -> c_prog t = op :: rest -> (forall j tj, ls !! j = Some tj -> j <> i -> c_pc tj = UIdle) ->
  exists s' r, solo (estep kf hash keq buckets excess) i (s, t) (s', {| c_prog := rest; c_pc := UIdle; c_log := c_log t ++ [(op, r)] |}).
Proof.
  run_hyps. intros i t op rest Hi Ep Hal.
  destruct (ers_alone kf hash keq true ord buckets excess Hk Hh Ho Hs fuel Hf u progs s ls HH Hp R i t op rest Hi Hal Ep) as (s' & r & H').
  exists s', r. unfold cfinish in H'. rewrite Ep in H'. exact H'.
Qed.

(** ** C65, histories: on the container of every history of phases (UHistSpec.v) every kernel can run to its end *)
Theorem C65_next_kernel_can_complete : forall (K V : Type) kf hash keq ord buckets excess fuel H (u : utab V) (progs : list (list (cop K V))),
  key_equality keq -> hash_respects keq hash -> any_order ord -> sizes_ok buckets excess -> (2 <= fuel)%nat ->
  history kf hash keq ord fuel buckets excess H u ->
  (inserts_and_lookups progs -> Z.of_nat (insert_calls progs) <= v_size (u_excess u) -> exists ls u', history kf hash keq ord fuel buckets excess (H ++ [InsertKernel progs ls]) u') /\
  (erases_and_lookups progs -> exists ls u', history kf hash keq ord fuel buckets excess (H ++ [EraseKernel progs ls]) u').
Proof.
  intros * Hk Hh Ho Hs Hf HH. pose proof (history_urep _ _ _ _ _ _ Hk Hh Ho Hs _ Hf _ _ HH) as Hu. split.
  - intros Hp Hroom. destruct (ins_complete kf hash keq true ord buckets excess Hk Hh Ho Hs fuel Hf u progs _ _ Hu Hp ltac:(apply rtc_refl)) as (s & ls & R & Hall).
    exists ls. eexists. eapply then_phase; [exact HH|]. eapply run_inserts; eassumption.
  - intros Hp. destruct (ers_complete kf hash keq true ord buckets excess Hk Hh Ho Hs fuel Hf u progs _ _ Hu Hp ltac:(apply rtc_refl)) as (s & ls & R & Hall).
    exists ls. eexists. eapply then_phase; [exact HH|]. eapply run_erases; eassumption.
Qed.
Print Assumptions C65_inserts_can_complete.
Print Assumptions C65_erases_can_complete.
Print Assumptions C65_insert_or_find_completes_alone.
Print Assumptions C65_erase_or_find_completes_alone.
Print Assumptions C65_next_kernel_can_complete.

(** states with a call in progress that holds locks while the other thread is between its calls: the insert of 2 has taken its entry from the
    excess list, the erase of 2 has unlinked its entry *)
Example C65_ex_insert : exists u s ls t,
  insert_find_run (V:=Z) (fun v => v) uex_hash Z.eqb true (fun n => seq 0 n) 2 4 2 u [[CInsert 2]; [CFind 1]] s ls /\
  ls !! 0%nat = Some t /\ c_prog t = [CInsert 2] /\ (exists e p, c_pc t = IConL e p /\ c_locks s !! e = Some true) /\
  (forall j tj, ls !! j = Some tj -> j <> 0%nat -> c_pc tj = UIdle).
Proof.
  assert (Hpre : key_equality Z.eqb /\ hash_respects Z.eqb uex_hash /\ any_order (fun n => seq 0 n) /\ sizes_ok 2 4 /\ (2 <= 2)%nat).
  { unfold key_equality, hash_respects, any_order, sizes_ok, INT_MAX. split; [split; [apply Z.eqb_refl|split; intros *; rewrite !Z.eqb_eq; congruence]|]. split; [intros a b; rewrite Z.eqb_eq; congruence|]. split; [reflexivity|lia]. }
  destruct Hpre as (P1 & P2 & P3 & P4 & P5).
  assert (Hu : exists u, (exists u0, reachable (V:=Z) (fun v => v) uex_hash Z.eqb true (fun n => seq 0 n) 2 2 4 u0 u) /\ exists u0 rs, uex_new 4 = Ret u0 /\ uex_run u0 [UInsert 1; UInsert 100] = Ret (u, rs)).
  { eexists. split; [eexists; exists [], [UInsert 1; UInsert 100]; eexists; split; [repeat constructor|]; split; [vm_compute; reflexivity|vm_compute; reflexivity]|].
    eexists _, _. split; [vm_compute; reflexivity|]. vm_compute. reflexivity. }
  destruct Hu as (u & Hu & u0 & rs & E1 & E2). vm_compute in E1. injection E1 as <-. vm_compute in E2. injection E2 as <- <-.
  match type of Hu with exists u0, reachable _ _ _ _ _ _ _ _ _ ?x => set (u := x) in * end.
  assert (Hp : inserts_and_lookups (K:=Z) (V:=Z) [[CInsert 2]; [CFind 1]]).
  { intros prog op H1 H2. repeat (apply elem_of_cons in H1 as [-> |H1]; [repeat (apply elem_of_cons in H2 as [-> |H2]; [exact I|]); inversion H2|]); inversion H1. }
  eexists u, _, _, _. split; [repeat (split; [assumption|]); apply (run_reach (uex_step 4) (replicate 22 0%nat)); vm_compute; reflexivity|].
  split; [vm_compute; reflexivity|]. split; [vm_compute; reflexivity|]. split; [eexists _, _; split; [vm_compute; reflexivity|vm_compute; reflexivity]|].
  intros [|[|j]] tj Hj Hne; [congruence|injection Hj as <-; reflexivity|discriminate].
Qed.
Example C65_ex_erase : exists H u s ls t,
  erase_find_run (V:=Z) (fun v => v) uex_hash Z.eqb (fun n => seq 0 n) 2 4 2 H u [[CErase 2]; [CFind 3]] s ls /\
  ls !! 0%nat = Some t /\ c_prog t = [CErase 2] /\ (exists p q x, c_pc t = XPush p q x /\ c_locks s !! p = Some true /\ c_locks s !! q = Some true) /\
  (forall j tj, ls !! j = Some tj -> j <> 0%nat -> c_pc tj = UIdle).
Proof.
  assert (Hpre : key_equality Z.eqb /\ hash_respects Z.eqb uex_hash /\ any_order (fun n => seq 0 n) /\ sizes_ok 2 4 /\ (2 <= 2)%nat).
  { unfold key_equality, hash_respects, any_order, sizes_ok, INT_MAX. split; [split; [apply Z.eqb_refl|split; intros *; rewrite !Z.eqb_eq; congruence]|]. split; [intros a b; rewrite Z.eqb_eq; congruence|]. split; [reflexivity|lia]. }
  destruct Hpre as (P1 & P2 & P3 & P4 & P5).
  assert (Hp : erases_and_lookups (K:=Z) (V:=Z) [[CErase 2]; [CFind 3]]).
  { intros prog op H1 H2. repeat (apply elem_of_cons in H1 as [-> |H1]; [repeat (apply elem_of_cons in H2 as [-> |H2]; [exact I|]); inversion H2|]); inversion H1. }
  assert (Hu : exists H u, history (V:=Z) (fun v => v) uex_hash Z.eqb (fun n => seq 0 n) 2 2 4 H u /\ exists u0 rs, uex_new 4 = Ret u0 /\ uex_run u0 [UInsert 1; UInsert 2; UInsert 3; UInsert 100] = Ret (u, rs)).
  { eexists _, _. split; [eapply then_phase; [eapply (created _ _ _ _ _ _ _ []); vm_compute; reflexivity|]; eapply (run_calls _ _ _ _ _ _ _ _ [UInsert 1; UInsert 2; UInsert 3; UInsert 100]); [repeat constructor|vm_compute; reflexivity]|].
    eexists _, _. split; [vm_compute; reflexivity|]. vm_compute. reflexivity. }
  destruct Hu as (H & u & HH & u0 & rs & E1 & E2). vm_compute in E1. injection E1 as <-. vm_compute in E2. injection E2 as <- <-.
  match type of HH with history _ _ _ _ _ _ _ _ ?x => set (u := x) in * end.
  eexists H, u, _, _, _. split; [repeat (split; [assumption|]); apply (run_reach eex_step (replicate 27 0%nat)); vm_compute; reflexivity|].
  split; [vm_compute; reflexivity|]. split; [vm_compute; reflexivity|]. split; [eexists _, _, _; split; [vm_compute; reflexivity|split; vm_compute; reflexivity]|].
  intros [|[|j]] tj Hj Hne; [congruence|injection Hj as <-; reflexivity|discriminate].
Qed.
