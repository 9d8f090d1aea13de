(** C84: a vector over any history of kernels and of calls by one caller. *)
From Verif Require Import Base Conc SlotModel SlotSpec VectorModel VectorSpec RejectProofs VDebtSpec VHistSpec VHistProofs.

(** ** for every capacity and every history (VHistSpec.v) of kernels — any number of threads, programs of push_back/pop_back, interleavings, not necessarily run to
    their ends, as long as no call is running — and of sequences of calls by one caller, starting with createDeviceObject: some list and debt explain all the
    results of all the calls, each kernel neither losing, duplicating nor inventing an element, the list never exceeding the capacity; device_range() is that list, size() its length, and
    valid() is true iff no debt is left.  The int counter has to fit at the end of each kernel. *)
Theorem C84_vector_history : forall (T : Type) (HT : EqDecision T) (opt : bool) (ord : nat -> list nat), (forall n, ord n ≡ₚ seq 0 n) ->
  forall cap : nat, 0 < Z.of_nat cap <= INT_MAX -> forall v0 (ps : list (@phase T)) v,
  vec_create (T:=T) (Z.of_nat cap) = Ret v0 -> history_run opt ord cap v0 ps v -> (forall p, p ∈ ps -> phase_fits cap p) ->
  exists l k, history_spec cap [] 0 ps l k /\ v_range v = Ret l /\ v_size v = Z.of_nat (length l) /\ (v_valid v = true <-> k = 0).
Proof. exact @vector_history. Qed.
Print Assumptions C84_vector_history.

(** ** ... and the next calls of one caller behave as specified for such a list and debt: in particular they leave the container's memory exactly if the specification
    has no result for them (operator[], front() or back() without an element), and never hang *)
Theorem C84_calls_in_histories : forall (T : Type) (HT : EqDecision T) (opt : bool) (ord : nat -> list nat), (forall n, ord n ≡ₚ seq 0 n) ->
  forall cap : nat, 0 < Z.of_nat cap <= INT_MAX -> forall v0 (ps : list (@phase T)) v,
  vec_create (T:=T) (Z.of_nat cap) = Ret v0 -> history_run opt ord cap v0 ps v -> (forall p, p ∈ ps -> phase_fits cap p) ->
  forall ops, (forall op, op ∈ ops -> op_fits (Z.of_nat cap) op) -> exists l k, history_spec cap [] 0 ps l k /\
  match debt_run (Z.of_nat cap) l k ops with
  | Ret (l', k', rs) => exists v', vec_run opt ord v ops = Ret (v', rs)
  | UB => vec_run opt ord v ops = UB
  | Hang => False
  end.
Proof. exact @vector_history_calls. Qed.
Print Assumptions C84_calls_in_histories.

(** ** ... and in the next kernel, at every moment: no thread leaves the arrays or reads an element that is not there, no two threads are at the same element,
    elements are constructed in free slots only, and there is a way for all calls to finish *)
Theorem C84_kernels_in_histories : forall (T : Type) (HT : EqDecision T) (opt : bool) (ord : nat -> list nat), (forall n, ord n ≡ₚ seq 0 n) ->
  forall cap : nat, 0 < Z.of_nat cap <= INT_MAX -> forall v0 (ps : list (@phase T)) v,
  vec_create (T:=T) (Z.of_nat cap) = Ret v0 -> history_run opt ord cap v0 ps v -> (forall p, p ∈ ps -> phase_fits cap p) ->
  forall progs, (forall p op, p ∈ progs -> op ∈ p -> vector_call op) -> forall s ls, reach (qstep (vctl cap)) (as_shared v, q_start progs) (s, ls) ->
  (forall i t, ls !! i = Some t -> q_prog t <> [] -> qstep (vctl cap) i s t <> None) /\
  (forall i j ti tj p, ls !! i = Some ti -> ls !! j = Some tj -> element_access ti = Some p -> element_access tj = Some p -> i = j) /\
  (forall i t p, ls !! i = Some t -> element_access t = Some p -> (p < cap)%nat /\
     exists d, q_data s !! p = Some d /\ (q_pc t = QConstruct p -> d = None) /\ (q_pc t <> QConstruct p -> d <> None)) /\
  exists s' ls', reach (qstep (vctl cap)) (s, ls) (s', ls') /\ finished ls'.
Proof. exact @vector_history_kernel. Qed.
Print Assumptions C84_kernels_in_histories.

(** capacity 1: a kernel of two pushes (one rejected), a pop that fails because of it, a kernel of a push (rejected at its first check) and a pop that returns
    the element, and a push *)
Example C84_ex : exists v0 ls1 ls2 v,
  vec_create 1 = Ret v0 /\
  history_run false (fun n => seq 0 n) 1 v0
    [Kernel [[QPush KPushBack 7%nat]; [QPush KPushBack 8%nat]] ls1; Calls [VValid; VSize; VPop; VValid] [RBool false; RNum 1; ROpt None; RBool true];
     Kernel [[QPush KPushBack 9%nat]; [QPop KPopBack]] ls2; Calls [VPush 5; VRange]%nat [RBool true; RList [5%nat]]] v /\
  map q_log ls1 = [[Pushed 7%nat]; [OutOfBounds]] /\ map q_log ls2 = [[Refused]; [Popped 7%nat]].
Proof.
  eexists _, _, _, _. split; [vm_compute; reflexivity|]. split.
  - econstructor; [|econstructor; [|econstructor; [|econstructor; [|constructor]]]].
    + apply Phase_kernel; [apply (run_reach _ [0; 0; 1; 1; 0; 1; 0; 0; 0; 0; 0]%nat); vm_compute; reflexivity| |vm_compute; split; discriminate].
      intros t Ht. repeat (apply elem_of_cons in Ht as [-> | Ht]; [reflexivity|]). inversion Ht.
    + apply Phase_calls. vm_compute. reflexivity.
    + apply Phase_kernel; [apply (run_reach _ [0; 0; 1; 1; 1; 1; 1; 1; 1; 1; 1]%nat); vm_compute; reflexivity| |vm_compute; split; discriminate].
      intros t Ht. repeat (apply elem_of_cons in Ht as [-> | Ht]; [reflexivity|]). inversion Ht.
    + apply Phase_calls. vm_compute. reflexivity.
  - split; vm_compute; reflexivity.
Qed.
