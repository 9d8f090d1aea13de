(** C22: what the calls leave behind that were rejected after they had changed the size counter. *)
From Verif Require Import Base Conc SlotModel SlotSpec VectorModel DequeModel RejectProofs.

(** ** whenever no call is running (after any history): the counter is the number of stored elements plus the number of pushes minus the number of
    pops that were rejected after changing it ([rejected], RejectProofs.v), and valid() is true exactly if these two numbers are equal.  Calls that were refused
    at once leave nothing.  Missing: that the difference is 0 (C22_rejected_call_leaves_trace_refuted). *)
Theorem C22_what_rejections_leave_partial : forall (T : Type) (cap : nat) (l : list T), (length l <= cap)%nat -> (0 < cap)%nat ->
  forall progs : list (list (qop T)), (forall p op, p ∈ progs -> op ∈ p -> vector_call op) ->
  forall s ls, reach (qstep (vctl cap)) (vec_conc_start cap l, q_start progs) (s, ls) -> quiescent ls ->
  v_n (as_vec s) = Z.of_nat (length (stored (q_data s))) + rejected true progs ls - rejected false progs ls /\
  (v_valid (as_vec s) = true <-> rejected true progs ls = rejected false progs ls).
Proof. exact @vec_reject. Qed.
Theorem C22_what_rejections_leave_deque_partial : forall (T : Type) (cap b : nat) (l : list T), (b < cap)%nat -> Z.of_nat cap <= INT_MAX -> (length l <= cap)%nat ->
  forall progs : list (list (qop T)), (forall p op, p ∈ progs -> op ∈ p -> op_wf op) ->
  forall s ls, reach (qstep (dctl cap)) (deq_conc_start cap b l, q_start progs) (s, ls) -> quiescent ls ->
  v_n (d_v (as_deq s)) = Z.of_nat (length (stored (q_data s))) + rejected true progs ls - rejected false progs ls /\
  (d_valid (as_deq s) = true <-> rejected true progs ls = rejected false progs ls).
Proof. exact @deq_reject. Qed.
Print Assumptions C22_what_rejections_leave_partial.
Print Assumptions C22_what_rejections_leave_deque_partial.

(** two pushes into an empty vector of capacity 1, one is rejected, and valid() is false; the pop that follows is rejected as well, and valid() is
    true again *)
Example C22_ex2 : exists s ls s2 ls2, let progs := [[QPush KPushBack 7%nat]; [QPush KPushBack 8%nat; QPop KPopBack]] in
  reach (qstep (vctl 1)) (vec_conc_start 1 [], q_start progs) (s, ls) /\ quiescent ls /\ rejected true progs ls = 1 /\ rejected false progs ls = 0 /\ v_valid (as_vec s) = false /\
  reach (qstep (vctl 1)) (s, ls) (s2, ls2) /\ quiescent ls2 /\ rejected true progs ls2 = 1 /\ rejected false progs ls2 = 1 /\ v_valid (as_vec s2) = true.
Proof.
  eexists _, _, _, _. split; [apply (run_reach _ [0; 0; 1; 1; 0; 0; 0; 0; 0; 0; 1]%nat); vm_compute; reflexivity|].
  split; [intros t Ht; repeat (apply elem_of_cons in Ht as [-> | Ht]; [reflexivity|]); inversion Ht|].
  split; [reflexivity|]. split; [reflexivity|]. split; [reflexivity|].
  split; [apply (run_reach _ [1; 1; 1]%nat); vm_compute; reflexivity|].
  split; [intros t Ht; repeat (apply elem_of_cons in Ht as [-> | Ht]; [reflexivity|]); inversion Ht|]. repeat split.
Qed.
