(** Two more runs for which no order of the calls is right: two pushing threads on a queue, one pushing and one popping thread on a stack. *)
From Verif Require Import Base Conc SlotModel SlotSpec VectorModel DequeModel DequeSpec FifoSpec FifoRefute.

(** ** the queue: a push that overtakes a sleeping push to the same slot *)
Definition w73c_progs : list (list (qop nat)) := [[QPush KPushBack 11%nat]; [QPush KPushBack 12%nat; QPush KPushBack 13%nat]; [QPop KPopFront; QPop KPopFront; QPop KPopFront; QPop KPopFront]].
Definition w73c_sched : list nat := replicate 4 0%nat ++ replicate 14 2%nat ++ replicate 18 1%nat ++ replicate 6 2%nat ++ replicate 5 0%nat ++ replicate 20 2%nat.
Definition w73c_ls : list (qthread nat) :=
  [{| q_pc := QIdle; q_prog := []; q_log := [Pushed 11%nat] |}; {| q_pc := QIdle; q_prog := []; q_log := [Pushed 12%nat; Pushed 13%nat] |};
   {| q_pc := QIdle; q_prog := []; q_log := [Popped 10%nat; Popped 13%nat; Popped 12%nat; Popped 11%nat] |}].
Lemma w73c_run : reach (qstep (dctl 2)) (deq_conc_start 2 0 [10%nat], q_start w73c_progs) (deq_conc_start 2 0 [], w73c_ls).
Proof. apply (run_reach _ w73c_sched). vm_compute. reflexivity. Qed.
Lemma w73c_none n h late M : accounts w73c_progs w73c_ls h -> ~ fifo n false [10%nat] h late M.
Proof.
  intros HA HF. pose proof (finals_all fifo_f h (zip_with (fun prog t => zip prog (q_log t)) w73c_progs w73c_ls) [10%nat] M (fifo_seqf _ _ _ _ _ _ HF) (proj1 HA) (accounts_rest w73c_progs w73c_ls h eq_refl ltac:(intros t Ht; repeat (apply elem_of_cons in Ht as [-> |Ht]; [reflexivity|]); inversion Ht) HA)) as X.
  vm_compute in X. inversion X.
Qed.

(** ** the stack: the push goes around the ring and claims the bottom slot, then the pop claims it as well *)
Definition w74c_progs : list (list (qop nat)) := [[QPush KPushBack 3%nat]; [QPop KPopBack]].
Definition w74c_sched : list nat := replicate 3 1%nat ++ replicate 4 0%nat ++ replicate 7 1%nat ++ replicate 5 0%nat.
Definition w74c_ls : list (qthread nat) := [{| q_pc := QIdle; q_prog := []; q_log := [Pushed 3%nat] |}; {| q_pc := QIdle; q_prog := []; q_log := [Popped 1%nat] |}].
Lemma w74c_run : reach (qstep (dctl 2)) (deq_conc_start 2 0 [1%nat; 2%nat], q_start w74c_progs) (deq_conc_start 2 0 [3%nat; 2%nat], w74c_ls).
Proof. apply (run_reach _ w74c_sched). vm_compute. reflexivity. Qed.
Lemma w74c_none cap k h M : accounts w74c_progs w74c_ls h -> ~ lifo cap k [1%nat; 2%nat] h M.
Proof.
  intros HA HF. pose proof (finals_all lifo_f h (zip_with (fun prog t => zip prog (q_log t)) w74c_progs w74c_ls) [1%nat; 2%nat] M (lifo_seqf _ _ _ _ _ HF) (proj1 HA) (accounts_rest w74c_progs w74c_ls h eq_refl ltac:(intros t Ht; repeat (apply elem_of_cons in Ht as [-> |Ht]; [reflexivity|]); inversion Ht) HA)) as X.
  vm_compute in X. inversion X.
Qed.
