(** C83: a deque whose limits were exceeded by concurrent calls, used by one caller afterwards. *)
From Verif Require Import Base Conc Lifetime SlotModel SlotSpec VectorModel VectorSpec BitModel DequeModel DequeSpec RejectProofs DDebtSpec DDebtProofs.

(** ** for every capacity, initial content and front slot, number of threads, programs of push/pop calls at both ends and interleaving: once no call is
    running, every sequence of calls by one caller behaves as a list bounded by the capacity whose size counter is off by k (off_run, DDebtSpec.v), where
    the list starts with the stored elements and k is the number of pushes minus the number of pops that were rejected after changing the counter
    ([rejected], RejectProofs.v): also when it waits forever ([Hang]) or destroys an object that does not exist ([UB]).
    Missing: the full property, that the results are those of a list (k = 0), which is false, see below; operator[], at(), back() and device_range(). *)
Theorem C83_results_after_overflow_partial : forall (T : Type) (opt : bool) (ord : nat -> list nat), (forall n, ord n ≡ₚ seq 0 n) ->
  forall (cap b : nat) (l : list T), (b < cap)%nat -> 0 < Z.of_nat cap <= INT_MAX -> (length l <= cap)%nat ->
  forall progs : list (list (qop T)), (forall p op, p ∈ progs -> op ∈ p -> op_wf op) ->
  forall s ls (ops : list (dop T)), reach (qstep (dctl cap)) (deq_conc_start cap b l, q_start progs) (s, ls) -> quiescent ls -> - 2 ^ 31 <= v_n (d_v (as_deq s)) <= INT_MAX ->
  (forall op, op ∈ ops -> described opt (rejected true progs ls - rejected false progs ls) op) ->
  exists L, L ≡ₚ stored (q_data s) /\
  match off_run opt (Z.of_nat cap) L (rejected true progs ls - rejected false progs ls) ops with
  | Ret (l', k', rs) => exists d', deq_run opt ord (as_deq s) ops = Ret (d', rs) /\ stored (v_data (d_v d')) ≡ₚ l' /\ (d_valid d' = true <-> k' = 0)
  | UB => deq_run opt ord (as_deq s) ops = UB
  | Hang => deq_run opt ord (as_deq s) ops = Hang
  end.
Proof. exact @after_off. Qed.
Print Assumptions C83_results_after_overflow_partial.

(** ** as many rejected pushes as rejected pops: the deque is as good as one that was never full or empty.  [spec_drun]: the list of C23 *)
Theorem C83_balanced : forall (T : Type) (opt : bool) (ord : nat -> list nat), (forall n, ord n ≡ₚ seq 0 n) ->
  forall (cap b : nat) (l : list T), (b < cap)%nat -> 0 < Z.of_nat cap <= INT_MAX -> (length l <= cap)%nat ->
  forall progs : list (list (qop T)), (forall p op, p ∈ progs -> op ∈ p -> op_wf op) ->
  forall s ls (ops : list (dop T)), reach (qstep (dctl cap)) (deq_conc_start cap b l, q_start progs) (s, ls) -> quiescent ls ->
  rejected true progs ls = rejected false progs ls -> (forall op, op ∈ ops -> described opt 0 op) ->
  exists L, L ≡ₚ stored (q_data s) /\
  match spec_drun (Z.of_nat cap) L ops with
  | Ret (l', rs) => exists d', deq_run opt ord (as_deq s) ops = Ret (d', rs) /\ stored (v_data (d_v d')) ≡ₚ l' /\ d_valid d' = true
  | UB => deq_run opt ord (as_deq s) ops = UB
  | Hang => False
  end.
Proof. exact @after_balanced. Qed.
Print Assumptions C83_balanced.

Ltac calls_ok := intros p op Hp Hop; repeat (apply elem_of_cons in Hp as [-> | Hp]; [repeat (apply elem_of_cons in Hop as [-> | Hop]; [reflexivity|]); inversion Hop|]); inversion Hp.
Ltac all_idle := intros t Ht; repeat (apply elem_of_cons in Ht as [-> | Ht]; [reflexivity|]); inversion Ht.

(** ** one caller waits forever: two pops of the one element of a deque of capacity 1, one of them returns false; later, with nobody else running, one
    caller pushes 8 (true; size() is 0 then, and pop_back returns nothing), and its next push_back never returns *)
Theorem C83_push_hangs_refuted : exists (progs : list (list (qop nat))) s ls,
  (forall p op, p ∈ progs -> op ∈ p -> op_wf op) /\
  reach (qstep (dctl 1)) (deq_conc_start 1 0 [7%nat], q_start progs) (s, ls) /\ quiescent ls /\ map q_log ls = [[Popped 7%nat]; [OutOfBounds]] /\
  forall (opt : bool) (ord : nat -> list nat),
    (exists d, deq_run opt ord (as_deq s) [DPushBack 8%nat; DSize; DEmpty; DPopBack; DClear; DFront] = Ret (d, [RBool true; RNum 0; RBool true; ROpt None; RUnit; RVal 8%nat])) /\
    deq_run opt ord (as_deq s) [DPushBack 8%nat; DPushBack 9%nat] = Hang.
Proof.
  exists [[QPop KPopBack]; [QPop KPopBack]]. eexists _, _. split; [calls_ok|].
  split; [apply (run_reach _ [0; 0; 1; 1; 0; 1; 0; 0; 0; 0; 0; 0; 0]%nat); vm_compute; reflexivity|]. split; [all_idle|]. split; [reflexivity|].
  intros opt ord. split; [eexists; vm_compute; reflexivity|vm_compute; reflexivity].
Qed.
Print Assumptions C83_push_hangs_refuted.

(** ** ... and the other way round: two pushes into an empty deque of capacity 1, one returns false; later one caller pops the element, size() is still 1,
    and its next pop never returns; clear() destroys an object that does not exist *)
Theorem C83_pop_hangs_refuted : exists (progs : list (list (qop nat))) s ls,
  (forall p op, p ∈ progs -> op ∈ p -> op_wf op) /\
  reach (qstep (dctl 1)) (deq_conc_start 1 0 [], q_start progs) (s, ls) /\ quiescent ls /\ map q_log ls = [[Pushed 7%nat]; [OutOfBounds]] /\
  (forall (opt : bool) (ord : nat -> list nat), (exists d, deq_run opt ord (as_deq s) [DPopFront; DSize] = Ret (d, [ROpt (Some 7%nat); RNum 1])) /\ deq_run opt ord (as_deq s) [DPopFront; DPopFront] = Hang) /\
  deq_run false (fun n => seq 0 n) (as_deq s) [DPopFront; DClear] = UB.
Proof.
  exists [[QPush KPushBack 7%nat]; [QPush KPushBack 8%nat]]. eexists _, _. split; [calls_ok|].
  split; [apply (run_reach _ [0; 0; 1; 1; 0; 1; 0; 0; 0; 0; 0; 0]%nat); vm_compute; reflexivity|]. split; [all_idle|]. split; [reflexivity|].
  split; [|vm_compute; reflexivity]. intros opt ord. split; [eexists; vm_compute; reflexivity|vm_compute; reflexivity].
Qed.
Print Assumptions C83_pop_hangs_refuted.

(** ** clear() forgets elements: capacity 2, two pops of one element as above, then one caller pushes two elements (both true), and clear() destroys none
    of them (begin and end are equal, and size() is 1), although size() is 0 and valid() is true afterwards *)
Theorem C83_clear_forgets_elements_refuted : exists (progs : list (list (qop nat))) s ls d,
  (forall p op, p ∈ progs -> op ∈ p -> op_wf op) /\
  reach (qstep (dctl 2)) (deq_conc_start 2 0 [7%nat], q_start progs) (s, ls) /\ quiescent ls /\ map q_log ls = [[Popped 7%nat]; [OutOfBounds]] /\
  deq_run false (fun n => seq 0 n) (as_deq s) [DPushBack 8%nat; DPushBack 9%nat; DClear; DSize; DValid] = Ret (d, [RBool true; RBool true; RUnit; RNum 0; RBool true]) /\
  v_ev (d_v d) = [EvConstruct (InSlot 0); EvConstruct (InSlot 1)] /\ stored (v_data (d_v d)) = [8; 9]%nat.
Proof.
  exists [[QPop KPopBack]; [QPop KPopBack]]. eexists _, _, _. split; [calls_ok|].
  split; [apply (run_reach _ [0; 0; 1; 1; 0; 1; 0; 0; 0; 0; 0; 0; 0]%nat); vm_compute; reflexivity|]. split; [all_idle|]. split; [reflexivity|].
  split; [vm_compute; reflexivity|]. split; reflexivity.
Qed.
Print Assumptions C83_clear_forgets_elements_refuted.

(** the hypotheses of the first theorem hold for two rejected pushes; the specification says when the calls fail and when they repair *)
Example C83_ex : exists s ls d, let progs := [[QPush KPushBack 7%nat]; [QPush KPushFront 8%nat]; [QPush KPushBack 9%nat]] in
  reach (qstep (dctl 1)) (deq_conc_start 1 0 [], q_start progs) (s, ls) /\ quiescent ls /\ rejected true progs ls = 2 /\ rejected false progs ls = 0 /\ stored (q_data s) = [8%nat] /\
  let ops := [DFull; DSize; DFront; DPushBack 5; DClear; DPushBack 6; DPopFront; DValid]%nat in
  (forall op, op ∈ ops -> described false 2 op) /\
  off_run false 1 [8%nat] 2 ops = Ret ([], 0, [RBool true; RNum 1; RVal 8%nat; RBool false; RUnit; RBool true; ROpt (Some 6%nat); RBool true]) /\
  deq_run false (fun n => seq 0 n) (as_deq s) ops = Ret (d, [RBool true; RNum 1; RVal 8%nat; RBool false; RUnit; RBool true; ROpt (Some 6%nat); RBool true]).
Proof.
  eexists _, _, _. split; [apply (run_reach _ [0; 0; 1; 1; 2; 2; 1; 0; 2; 1; 1; 1; 1; 1; 1]%nat); vm_compute; reflexivity|].
  split; [all_idle|]. repeat (split; [vm_compute; reflexivity|]). split; [|split; vm_compute; reflexivity].
  intros op Ho. repeat (apply elem_of_cons in Ho as [-> | Ho]; [cbn; auto; try (right; lia)|]). inversion Ho.
Qed.
