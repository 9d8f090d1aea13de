(** Property theorems C75 and the positive part of C23: kernels in which all calls push, or all calls pop. *)
From Verif Require Import Base Conc AtomicModel SlotModel SlotSpec VectorModel VectorConcProofs DequeModel OneKind.

(** C75 (vector): any number of threads whose calls are all push_back, or all pop_back.  Every execution, whatever the
    schedule, has at most ten atomic accesses per call (no call ever waits for another one, no fairness is needed), and
    is never stuck before all calls have returned; then as many calls have succeeded as there was room, respectively
    as there were elements, and no more are refused than that. *)
Theorem C75_vector_one_kind_completes : forall (T : Type) (cap : nat) (l : list T), (length l <= cap)%nat ->
  forall (push : bool) (progs : list (list (qop T))),
  (forall p op, p ∈ progs -> op ∈ p -> vector_call op /\ is_push (kind_of op) = push) ->
  forall k s ls, nsteps (cstep (qstep (vctl cap))) k (vec_conc_start cap l, q_start progs) (s, ls) ->
  (k <= 10 * length (concat progs))%nat /\
  (finished ls \/ exists c, cstep (qstep (vctl cap)) (s, ls) c) /\
  (finished ls -> length (if push then all_pushed ls else all_popped ls) =
     Nat.min (length (concat progs)) (if push then cap - length l else length l)).
Proof. exact @vec_one_kind. Qed.
Print Assumptions C75_vector_one_kind_completes.
(** C75 (deque, and so queue and stack): the same for calls push_front/push_back, or pop_front/pop_back, in any mix of
    the two ends. *)
Theorem C75_deque_one_kind_completes : forall (T : Type) (cap b : nat) (l : list T), (b < cap)%nat -> Z.of_nat cap <= INT_MAX -> (length l <= cap)%nat ->
  forall (push : bool) (progs : list (list (qop T))),
  (forall p op, p ∈ progs -> op ∈ p -> op_wf op /\ is_push (kind_of op) = push) ->
  forall k s ls, nsteps (cstep (qstep (dctl cap))) k (deq_conc_start cap b l, q_start progs) (s, ls) ->
  (k <= 10 * length (concat progs))%nat /\
  (finished ls \/ exists c, cstep (qstep (dctl cap)) (s, ls) c) /\
  (finished ls -> length (if push then all_pushed ls else all_popped ls) =
     Nat.min (length (concat progs)) (if push then cap - length l else length l)).
Proof. exact @deq_one_kind. Qed.
Print Assumptions C75_deque_one_kind_completes.
(** three pushes by two threads into a deque of capacity 3 that holds one element: two succeed; both ends are used *)
Example C75_ex : exists s ls, nsteps (cstep (qstep (dctl 3))) 20 (deq_conc_start 3 2 [1%nat], q_start
     [[QPush KPushBack 5%nat]; [QPush KPushFront 6%nat; QPush KPushBack 7%nat]]) (s, ls) /\
  finished ls /\ map q_log ls = [[Pushed 5%nat]; [Pushed 6%nat; Refused]] /\ all_pushed ls = [5; 6]%nat.
Proof.
  eexists _, _. split; [apply (run_nsteps _ [0;1;0;1;0;1;1;1;0;1;1;0;0;0;0;0;1;1;1;1]%nat); vm_compute; reflexivity|].
  split; [|split; reflexivity]. intros t Ht. repeat (apply elem_of_cons in Ht as [-> | Ht]; [split; reflexivity|]). inversion Ht.
Qed.

(** C23, what holds: the deadlock needs pushes and pops in one kernel.  If all calls push, or all calls pop, then with
    lane-serialised wavefronts, however the threads are grouped into wavefronts, every execution has at most ten
    accesses per call, never gets stuck, and ends with as many successful calls as possible. *)
Theorem C23_same_kind_vector_partial : forall (T : Type) (cap : nat) (l : list T), (length l <= cap)%nat ->
  forall (push : bool) (progs : list (list (qop T))),
  (forall p op, p ∈ progs -> op ∈ p -> vector_call op /\ is_push (kind_of op) = push) ->
  forall wave k s ls, nsteps (hip_step (vctl cap) wave) k (vec_conc_start cap l, q_start progs) (s, ls) ->
  (k <= 10 * length (concat progs))%nat /\
  (finished ls \/ exists c, hip_step (vctl cap) wave (s, ls) c) /\
  (finished ls -> length (if push then all_pushed ls else all_popped ls) =
     Nat.min (length (concat progs)) (if push then cap - length l else length l)).
Proof.
  intros T cap l Hl push progs Hwf wave k s ls H. destruct (vec_same_kind_run cap l Hl push progs Hwf wave k s ls H) as [A B].
  split; [exact A|]. split; [exact B|]. intros F. exact (vec_same_kind_end cap l Hl push progs Hwf wave s ls (rtc_nsteps_2 k _ _ H) F).
Qed.
Print Assumptions C23_same_kind_vector_partial.
Theorem C23_same_kind_deque_partial : forall (T : Type) (cap b : nat) (l : list T), (b < cap)%nat -> Z.of_nat cap <= INT_MAX -> (length l <= cap)%nat ->
  forall (push : bool) (progs : list (list (qop T))),
  (forall p op, p ∈ progs -> op ∈ p -> op_wf op /\ is_push (kind_of op) = push) ->
  forall wave k s ls, nsteps (hip_step (dctl cap) wave) k (deq_conc_start cap b l, q_start progs) (s, ls) ->
  (k <= 10 * length (concat progs))%nat /\
  (finished ls \/ exists c, hip_step (dctl cap) wave (s, ls) c) /\
  (finished ls -> length (if push then all_pushed ls else all_popped ls) =
     Nat.min (length (concat progs)) (if push then cap - length l else length l)).
Proof.
  intros T cap b l Hb Hcap Hl push progs Hwf wave k s ls H. destruct (deq_same_kind_run cap b l Hb Hcap Hl push progs Hwf wave k s ls H) as [A B].
  split; [exact A|]. split; [exact B|]. intros F. exact (deq_same_kind_end cap b l Hb Hcap Hl push progs Hwf wave s ls (rtc_nsteps_2 k _ _ H) F).
Qed.
Print Assumptions C23_same_kind_deque_partial.
(** two lanes of one wavefront push: the second one is held back until the first one has left its loop *)
Example C23_same_kind_ex : exists s ls, nsteps (hip_step (vctl 2) (fun _ => 0%nat)) 16 (vec_conc_start 2 [], q_start
     [[QPush KPushBack 5%nat]; [QPush KPushBack 6%nat]]) (s, ls) /\ finished ls /\ map q_log ls = [[Pushed 5%nat]; [Pushed 6%nat]].
Proof.
  eexists _, _. split; [apply (hip_run_nsteps _ _ [0;0;1;1;0;1;0;0;0;0;0;1;1;1;1;1]%nat); vm_compute; reflexivity|].
  split; [|reflexivity]. intros t Ht. repeat (apply elem_of_cons in Ht as [-> | Ht]; [split; reflexivity|]). inversion Ht.
Qed.
