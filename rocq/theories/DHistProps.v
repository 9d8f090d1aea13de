(** C85: a deque (queue, stack) over any history of kernels and of calls by one caller. *)
From Verif Require Import Base Conc SlotModel SlotSpec VectorModel VectorSpec DequeModel DequeSpec RejectProofs DDebtSpec DHistSpec DHistProofs.

(** ** for every capacity and every history (DHistSpec.v) of kernels — any number of threads, programs of push and pop calls at both ends, interleavings, not necessarily
    run to their ends, as long as no call is running — and of sequences of calls by one caller, starting with createDeviceObject: some list and some number by which
    the counter is off explain all the results of all the calls; each kernel neither loses, duplicates nor invents an element; the list never exceeds the capacity.
    The int counter has to fit at the end of each kernel. *)
Theorem C85_deque_history : forall (T : Type) (HT : EqDecision T) (opt : bool) (ord : nat -> list nat), (forall n, ord n ≡ₚ seq 0 n) ->
  forall cap : nat, 0 < Z.of_nat cap <= INT_MAX -> forall junk d0, deq_create (T:=T) junk (Z.of_nat cap) = Ret d0 ->
  forall (ps : list (@dphase T)) d, dhistory_run opt ord cap d0 ps d -> (forall p, p ∈ ps -> dphase_fits opt p) ->
  exists l k, dhistory_spec opt cap [] 0 ps l k /\ stored (v_data (d_v d)) ≡ₚ l /\ d_size d = Z.max 0 (Z.min (Z.of_nat cap) (Z.of_nat (length l) + k)) /\ (d_valid d = true <-> k = 0).
Proof. exact @deque_history. Qed.
Print Assumptions C85_deque_history.

(** ** ... and the next calls of one caller do what the specification says for such a list and number, including when it never returns (C83) *)
Theorem C85_calls_in_histories : forall (T : Type) (HT : EqDecision T) (opt : bool) (ord : nat -> list nat), (forall n, ord n ≡ₚ seq 0 n) ->
  forall cap : nat, 0 < Z.of_nat cap <= INT_MAX -> forall junk d0, deq_create (T:=T) junk (Z.of_nat cap) = Ret d0 ->
  forall (ps : list (@dphase T)) d, dhistory_run opt ord cap d0 ps d -> (forall p, p ∈ ps -> dphase_fits opt p) ->
  forall ops, (forall op k, op ∈ ops -> described opt k op) -> exists l k, dhistory_spec opt cap [] 0 ps l k /\
  match off_run opt (Z.of_nat cap) l k ops with
  | Ret (l', k', rs) => exists d', deq_run opt ord d ops = Ret (d', rs)
  | UB => deq_run opt ord d ops = UB
  | Hang => deq_run opt ord d ops = Hang
  end.
Proof. exact @deque_history_calls. Qed.
Print Assumptions C85_calls_in_histories.

(** ** ... and in the next kernel, at every moment: no thread leaves the arrays or reads an element that is not there, no two threads are at the same element,
    and elements are constructed in free slots only *)
Theorem C85_kernels_in_histories : forall (T : Type) (HT : EqDecision T) (opt : bool) (ord : nat -> list nat), (forall n, ord n ≡ₚ seq 0 n) ->
  forall cap : nat, 0 < Z.of_nat cap <= INT_MAX -> forall junk d0, deq_create (T:=T) junk (Z.of_nat cap) = Ret d0 ->
  forall (ps : list (@dphase T)) d, dhistory_run opt ord cap d0 ps d -> (forall p, p ∈ ps -> dphase_fits opt p) ->
  forall progs : list (list (qop T)), (forall p op, p ∈ progs -> op ∈ p -> op_wf op) -> forall s ls, reach (qstep (dctl cap)) (d_as_shared d, q_start progs) (s, ls) ->
  (forall i t, ls !! i = Some t -> q_prog t <> [] -> qstep (dctl cap) i s t <> None) /\
  (forall i j ti tj p, ls !! i = Some ti -> ls !! j = Some tj -> element_access ti = Some p -> element_access tj = Some p -> i = j) /\
  (forall i t p, ls !! i = Some t -> element_access t = Some p -> (p < cap)%nat /\
     exists x, q_data s !! p = Some x /\ (q_pc t = QConstruct p -> x = None) /\ (q_pc t <> QConstruct p -> x <> None)).
Proof. exact @deque_history_kernel. Qed.
Print Assumptions C85_kernels_in_histories.

(** ** if each kernel rejected as many pushes as pops after changing the counter (for example none), the deque is a bounded list over the whole history (DequeSpec.v): all results,
    including device_range(), size() and valid(), are those of the list, and so are those of every next sequence of calls that has results in the specification *)
Theorem C85_balanced_histories : forall (T : Type) (HT : EqDecision T) (opt : bool) (ord : nat -> list nat), (forall n, ord n ≡ₚ seq 0 n) ->
  forall cap : nat, 0 < Z.of_nat cap <= INT_MAX -> forall junk d0, deq_create (T:=T) junk (Z.of_nat cap) = Ret d0 ->
  forall (ps : list (@dphase T)) d, dhistory_run opt ord cap d0 ps d -> (forall p, p ∈ ps -> balanced cap p) ->
  exists l, plain_history cap [] ps l /\ stored (v_data (d_v d)) ≡ₚ l /\ d_size d = Z.of_nat (length l) /\ d_valid d = true /\
  forall ops, (forall op, op ∈ ops -> dop_fits (Z.of_nat cap) op) -> forall l' rs, spec_drun (Z.of_nat cap) l ops = Ret (l', rs) ->
  exists d' rs', deq_run opt ord d ops = Ret (d', rs') /\ Forall2 same_result rs' rs.
Proof. exact @plain_hist. Qed.
Print Assumptions C85_balanced_histories.

Ltac idle := intros t Ht; repeat (apply elem_of_cons in Ht as [-> | Ht]; [reflexivity|]); inversion Ht.
(** capacity 1: a kernel of two pushes (one rejected after changing the counter), calls, a kernel of a pop and a push_front seen full, calls *)
Example C85_ex : exists d0 ls1 ls2 d,
  deq_create [] 1 = Ret d0 /\
  dhistory_run true (fun n => seq 0 n) 1 d0
    [DKernel [[QPush KPushBack 7%nat]; [QPush KPushBack 8%nat]] ls1; DCalls [DValid; DSize; DFront] [RBool false; RNum 1; RVal 7%nat];
     DKernel [[QPush KPushFront 9%nat]; [QPop KPopBack]] ls2; DCalls [DSize; DClear; DValid; DPushFront 5; DSize]%nat [RNum 1; RUnit; RBool true; RBool true; RNum 1]] d /\
  map q_log ls1 = [[Pushed 7%nat]; [OutOfBounds]] /\ map q_log ls2 = [[Refused]; [Popped 7%nat]].
Proof.
  eexists _, _, _, _. split; [vm_compute; reflexivity|]. split.
  - econstructor; [|econstructor; [|econstructor; [|econstructor; [|constructor]]]].
    + apply DPhase_kernel; [apply (run_reach _ [0; 0; 1; 1; 0; 1; 0; 0; 0; 0; 0; 0]%nat); vm_compute; reflexivity|idle|vm_compute; split; discriminate].
    + apply DPhase_calls. vm_compute. reflexivity.
    + apply DPhase_kernel; [apply (run_reach _ [0; 0; 1; 1; 1; 1; 1; 1; 1; 1; 1; 1]%nat); vm_compute; reflexivity|idle|vm_compute; split; discriminate].
    + apply DPhase_calls. vm_compute. reflexivity.
  - split; vm_compute; reflexivity.
Qed.
(** capacity 2: no rejections *)
Example C85_ex_balanced : exists d0 ls1 ls2 d,
  deq_create [] 2 = Ret d0 /\
  dhistory_run false (fun n => seq 0 n) 2 d0
    [DKernel [[QPush KPushBack 7%nat]; [QPush KPushFront 8%nat]] ls1; DCalls [DRange; DPopFront; DClear; DPushBack 5]%nat [RList [7; 8]%nat; ROpt (Some 8%nat); RUnit; RBool true];
     DKernel [[QPop KPopBack]] ls2] d /\
  (forall p, p ∈ [DKernel [[QPush KPushBack 7%nat]; [QPush KPushFront 8%nat]] ls1; DCalls [DRange; DPopFront; DClear; DPushBack 5]%nat [RList [7; 8]%nat; ROpt (Some 8%nat); RUnit; RBool true];
     DKernel [[QPop KPopBack]] ls2] -> balanced 2 p) /\
  map q_log ls2 = [[Popped 5%nat]].
Proof.
  eexists _, _, _, _. split; [vm_compute; reflexivity|]. split.
  - econstructor; [|econstructor; [|econstructor; [|constructor]]].
    + apply DPhase_kernel; [apply (run_reach _ [0; 0; 1; 1; 0; 0; 1; 0; 0; 1; 0; 0; 1; 1; 1; 1; 1; 0]%nat); vm_compute; reflexivity|idle|vm_compute; split; discriminate].
    + apply DPhase_calls. vm_compute. reflexivity.
    + apply DPhase_kernel; [apply (run_reach _ [0; 0; 0; 0; 0; 0; 0; 0; 0; 0]%nat); vm_compute; reflexivity|idle|vm_compute; split; discriminate].
  - split; [|vm_compute; reflexivity]. intros p Hp. apply elem_of_cons in Hp as [-> | Hp]; [|apply elem_of_cons in Hp as [-> | Hp]; [|apply elem_of_cons in Hp as [-> | Hp]; [|inversion Hp]]].
    + split; [|vm_compute; reflexivity]. intros pr op H1 H2. repeat (apply elem_of_cons in H1 as [-> | H1]; [repeat (apply elem_of_cons in H2 as [-> | H2]; [reflexivity|]); inversion H2|]). inversion H1.
    + intros op Ho. repeat (apply elem_of_cons in Ho as [-> | Ho]; [cbn; try exact Logic.I; lia|]). inversion Ho.
    + split; [|vm_compute; reflexivity]. intros pr op H1 H2. repeat (apply elem_of_cons in H1 as [-> | H1]; [repeat (apply elem_of_cons in H2 as [-> | H2]; [reflexivity|]); inversion H2|]). inversion H1.
Qed.
