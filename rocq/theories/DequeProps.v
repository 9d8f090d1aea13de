(** The deque, queue and stack properties (C24-C30, and C53 for deque), stated on the models of DequeModel.v. *)
From Verif Require Import Base Conc SlotModel SlotSpec Lifetime VectorModel VectorSpec DequeModel DequeSpec DequeProofs DequeConcProofs.

Ltac all_calls := let p := fresh in let op := fresh in let Hp := fresh in let Hop := fresh in
  intros p op Hp Hop; repeat (apply elem_of_cons in Hp as [-> | Hp]; [repeat (apply elem_of_cons in Hop as [-> | Hop]; [reflexivity|]); inversion Hop|]); inversion Hp.

(** C24, what holds: for every capacity up to INT_MAX and every sequence of calls (except at(); operator[], back and
    device_range only for capacities up to 2^30) that is inside the contract of a bounded list, the deque returns what
    the list returns (the elements of device_range() in any order), valid() is true and size() is the length. *)
Theorem C24_deque_is_bounded_deque_partial : forall (T : Type) (opt : bool) (ord : nat -> list nat), (forall n, ord n ≡ₚ seq 0 n) ->
  forall junk cap (ops : list (dop T)) l rs, 0 < cap <= INT_MAX -> (forall op, op ∈ ops -> dop_fits cap op) ->
  spec_drun cap [] ops = Ret (l, rs) ->
  exists d0 d rs', deq_create junk cap = Ret d0 /\ deq_run opt ord d0 ops = Ret (d, rs') /\ Forall2 same_result rs' rs /\
    d_valid d = true /\ d_size d = Z.of_nat (length l).
Proof. exact @deq_refines. Qed.
Print Assumptions C24_deque_is_bounded_deque_partial.
Example C24_ex : (forall op, op ∈ [DPushFront 1; DPushFront 2; DPushBack 3; DPushBack 4; DIndex 2; DPopBack; DPopFront; DFront; DBack; DClear; DPopFront; DEmpty] -> dop_fits 3 op) /\
  spec_drun 3 [] [DPushFront 1; DPushFront 2; DPushBack 3; DPushBack 4; DIndex 2; DPopBack; DPopFront; DFront; DBack; DClear; DPopFront; DEmpty] =
  Ret ([], [RBool true; RBool true; RBool true; RBool false; RVal 3; ROpt (Some 3); ROpt (Some 2); RVal 1; RVal 1; RUnit; ROpt None; RBool true]).
Proof.
  split; [|vm_compute; reflexivity]. intros op H. repeat (apply elem_of_cons in H as [-> | H]; [cbn; lia|]). inversion H.
Qed.
(** at(n) tests the occupancy of slot n instead of slot (begin + n) mod capacity: for a deque of capacity 3 holding one
    element pushed to the front, at(0) violates its own check although front() and operator[] return the element *)
Theorem C24_at_refuted : forall (opt : bool) (ord : nat -> list nat) (x : Z),
  spec_drun 3 [] [DPushFront x; DAt 0] = Ret ([x], [RBool true; RVal x]) /\
  exists d0 d, deq_create [] 3 = Ret d0 /\ deq_run opt ord d0 [DPushFront x] = Ret (d, [RBool true]) /\
    deq_step opt ord d (DAt 0) = UB /\ deq_step opt ord d (DIndex 0) = Ret (d, RVal x) /\ deq_step opt ord d DFront = Ret (d, RVal x).
Proof.
  intros opt ord x. split; [reflexivity|]. eexists _, _. split; [reflexivity|]. split; [reflexivity|]. split; [reflexivity|]. split; reflexivity.
Qed.
(** capacity INT_MAX: begin + n overflows index_t in operator[], and the wrapped device_range overflows as well *)
Theorem C24_large_capacity_refuted : forall (T : Type) (opt : bool) (ord : nat -> list nat), (forall n, ord n ≡ₚ seq 0 n) -> forall junk (x : T),
  exists d0 d rs, deq_create junk INT_MAX = Ret d0 /\ deq_run opt ord d0 [DPushFront x; DPushBack x; DPushBack x] = Ret (d, rs) /\
    deq_step opt ord d (DIndex 2) = UB /\ deq_step opt ord d DRange = UB.
Proof. exact @big_capacity. Qed.
Print Assumptions C24_large_capacity_refuted.
(** the sequential functions are the step machine below with nobody else running *)
Theorem C24_push_alone : forall (T : Type) cap (front : bool) (s : qshared T dcnt) x (d' : deq T) r0 i (ls : list (qthread T)) (t : qthread T) rest,
  length (q_occ s) = cap -> - 2 ^ 31 <= c_n (q_c s) < INT_MAX ->
  (if front then d_push_front (as_deq s) x else d_push_back (as_deq s) x) = Ret (d', r0) ->
  ls !! i = Some t -> q_prog t = QPush (if front then KPushFront else KPushBack) x :: rest -> q_pc t = QIdle ->
  exists s' r, reach (qstep (dctl cap)) (s, ls) (s', <[i := finish t r]> ls) /\ same_deq s' d' /\
    (r0 = true <-> r = Pushed x) /\ (r0 = false <-> r = Refused \/ r = OutOfBounds).
Proof. exact @solo_push. Qed.
Theorem C24_pop_alone : forall (T : Type) cap (front : bool) (s : qshared T dcnt) (d' : deq T) o i (ls : list (qthread T)) (t : qthread T) rest,
  length (q_occ s) = cap -> - 2 ^ 31 < c_n (q_c s) <= INT_MAX ->
  (if front then d_pop_front (as_deq s) else d_pop_back (as_deq s)) = Ret (d', o) ->
  ls !! i = Some t -> q_prog t = QPop (if front then KPopFront else KPopBack) :: rest -> q_pc t = QIdle ->
  exists s' r, reach (qstep (dctl cap)) (s, ls) (s', <[i := finish t r]> ls) /\ same_deq s' d' /\
    match o with Some y => r = Popped y | None => r = Refused \/ r = OutOfBounds end.
Proof. exact @solo_pop. Qed.
Print Assumptions C24_push_alone.
Print Assumptions C24_pop_alone.
Example C24_alone_ex : exists d' : deq Z, d_pop_back (as_deq (deq_conc_start 3 2 [5; 6])) = Ret (d', Some 6) /\ d_begin d' = 2 /\ d_end d' = 0.
Proof. eexists. split; [vm_compute; reflexivity|]. split; reflexivity. Qed.

(** C25: for every capacity, initial content at every ring position, number of threads, programs of the four push/pop
    calls and interleaving: initial content + pushed = popped + stored, as multisets. *)
Theorem C25_deque_conserves_elements : forall (T : Type) (cap b : nat) (l : list T), (b < cap)%nat -> Z.of_nat cap <= INT_MAX -> (length l <= cap)%nat ->
  forall progs : list (list (qop T)), (forall p op, p ∈ progs -> op ∈ p -> op_wf op) ->
  forall (_ : EqDecision T) s ls, reach (qstep (dctl cap)) (deq_conc_start cap b l, q_start progs) (s, ls) ->
  l ++ all_pushed ls ≡ₚ all_popped ls ++ stored (q_data s).
Proof. exact @deq_conservation. Qed.
Print Assumptions C25_deque_conserves_elements.
(** ... no thread gets stuck on an access outside the arrays or to a dead element, no two threads construct, read or
    destroy in the same slot at the same time, elements are constructed in empty slots, read and destroyed in filled
    ones.  Missing for the full C25: the copy of _data[0] on entry to the pops, see the next theorem. *)
Theorem C25_deque_access_partial : forall (T : Type) (cap b : nat) (l : list T), (b < cap)%nat -> Z.of_nat cap <= INT_MAX -> (length l <= cap)%nat ->
  forall progs : list (list (qop T)), (forall p op, p ∈ progs -> op ∈ p -> op_wf op) ->
  forall s ls, reach (qstep (dctl cap)) (deq_conc_start cap b l, q_start progs) (s, ls) ->
  (forall i t, ls !! i = Some t -> q_prog t <> [] -> qstep (dctl cap) i s t <> None) /\
  (forall i j ti tj p, ls !! i = Some ti -> ls !! j = Some tj -> element_access ti = Some p -> element_access tj = Some p -> i = j) /\
  (forall i t p, ls !! i = Some t -> element_access t = Some p -> (p < cap)%nat /\
     exists d, q_data s !! p = Some d /\ (q_pc t = QConstruct p -> d = None) /\ (q_pc t <> QConstruct p -> d <> None)).
Proof. exact @deq_access. Qed.
Print Assumptions C25_deque_access_partial.
Theorem C25_deque_init_copy_race_refuted : exists (progs : list (list (qop nat))) s ls t1 t2,
  (forall p op, p ∈ progs -> op ∈ p -> op_wf op) /\
  reach (qstep (dctl 2)) (deq_conc_start 2 0 [], q_start progs) (s, ls) /\
  ls !! 0%nat = Some t1 /\ ls !! 1%nat = Some t2 /\ element_write t1 = Some 0%nat /\ init_read t2 = true.
Proof.
  exists [[QPush KPushBack 5%nat]; [QPop KPopFront]]. eexists _, _, _, _. split; [all_calls|].
  split; [apply (run_reach _ [0; 0; 0; 0; 0; 0]%nat); vm_compute; reflexivity|]. repeat split; reflexivity.
Qed.
Print Assumptions C25_deque_init_copy_race_refuted.
(** wrapped content, threads at both ends; a pop_back waits for the element of a push_back that has claimed its slot *)
Example C25_ex : exists s ls, reach (qstep (dctl 3)) (deq_conc_start 3 2 [1%nat], q_start
     [[QPush KPushBack 2%nat]; [QPop KPopBack]; [QPop KPopFront; QPush KPushFront 3%nat]]) (s, ls) /\
  map q_pc ls = [QTry 0; QTry 0; QTry 2] /\ stored (q_data s) = [1%nat].
Proof. eexists _, _. split; [apply (run_reach _ [0; 0; 0; 0; 1; 1; 1; 1; 2; 2; 2; 2]%nat); vm_compute; reflexivity|]. repeat split. Qed.

(** C26: from every reachable state in which no completed call was rejected after changing the size counter, some
    schedule lets every pending call return (and no other call starts) ... *)
Theorem C26_deque_pending_calls_can_complete : forall (T : Type) (cap b : nat) (l : list T), (b < cap)%nat -> Z.of_nat cap <= INT_MAX -> (length l <= cap)%nat ->
  forall progs : list (list (qop T)), (forall p op, p ∈ progs -> op ∈ p -> op_wf op) ->
  forall s ls, reach (qstep (dctl cap)) (deq_conc_start cap b l, q_start progs) (s, ls) -> no_oob ls ->
  exists s' ls', reach (qstep (dctl cap)) (s, ls) (s', ls') /\ quiescent ls' /\ returned_calls ls ls'.
Proof. exact @deq_pending_complete. Qed.
Print Assumptions C26_deque_pending_calls_can_complete.
(** ... and if no call stands between its full()/empty() check and its access to the size counter, some schedule
    completes all programs without any such rejection *)
Theorem C26_deque_programs_can_complete : forall (T : Type) (cap b : nat) (l : list T), (b < cap)%nat -> Z.of_nat cap <= INT_MAX -> (length l <= cap)%nat ->
  forall progs : list (list (qop T)), (forall p op, p ∈ progs -> op ∈ p -> op_wf op) ->
  forall s ls, reach (qstep (dctl cap)) (deq_conc_start cap b l, q_start progs) (s, ls) -> no_oob ls -> (forall t, t ∈ ls -> q_pc t <> QCtl 1) ->
  exists s' ls', reach (qstep (dctl cap)) (s, ls) (s', ls') /\ finished ls' /\ no_oob ls'.
Proof. exact @deq_programs_complete. Qed.
Print Assumptions C26_deque_programs_can_complete.
(** ... at quiescence valid() is true, size() is the number of stored elements, and the occupied and living slots are
    exactly the size() slots from begin on around the ring; the slot after them is end; no lock is held *)
Theorem C26_deque_at_quiescence : forall (T : Type) (cap b : nat) (l : list T), (b < cap)%nat -> Z.of_nat cap <= INT_MAX -> (length l <= cap)%nat ->
  forall progs : list (list (qop T)), (forall p op, p ∈ progs -> op ∈ p -> op_wf op) ->
  forall s ls, reach (qstep (dctl cap)) (deq_conc_start cap b l, q_start progs) (s, ls) -> quiescent ls -> no_oob ls ->
  d_valid (as_deq s) = true /\ d_size (as_deq s) = Z.of_nat (length (stored (q_data s))) /\
  (forall p, (p < cap)%nat -> q_locks s !! p = Some false /\
     q_occ s !! p = Some (bool_decide (Z.of_nat (ring_dist cap (Z.to_nat (d_begin (as_deq s))) p) < d_size (as_deq s))) /\
     exists d, q_data s !! p = Some d /\ (d <> None <-> Z.of_nat (ring_dist cap (Z.to_nat (d_begin (as_deq s))) p) < d_size (as_deq s))) /\
  d_end (as_deq s) = (d_begin (as_deq s) + d_size (as_deq s)) mod Z.of_nat cap.
Proof. exact @deq_quiescent. Qed.
Print Assumptions C26_deque_at_quiescence.
Example C26_ex : exists s ls, reach (qstep (dctl 2)) (deq_conc_start 2 1 [1%nat], q_start [[QPush KPushBack 2%nat]; [QPop KPopFront]]) (s, ls) /\
  quiescent ls /\ no_oob ls /\ map q_log ls = [[Pushed 2%nat]; [Popped 1%nat]] /\ d_begin (as_deq s) = 0 /\ d_size (as_deq s) = 1.
Proof.
  eexists _, _. split; [apply (run_reach _ [0; 0; 0; 0; 1; 1; 1; 1; 1; 1; 0; 0; 0; 0; 0; 1; 1; 1; 1]%nat); vm_compute; reflexivity|].
  split; [|split; [|split; [reflexivity|split; reflexivity]]]; intros t Ht; repeat (apply elem_of_cons in Ht as [-> | Ht]; [try reflexivity|]); try inversion Ht.
  all: intros H; repeat (apply elem_of_cons in H as [H|H]; [discriminate|]); inversion H.
Qed.

(** C27 is false: capacity 1, two threads pass the full() check together, one push returns false; all concurrent calls
    have returned ([quiescent]); the second thread then pops twice: the first pop returns the element, the second one
    never returns in any continuation. *)
Theorem C27_deque_blocks_after_overflow_refuted : exists (progs : list (list (qop nat))) s1 ls1 s2 ls2,
  (forall p op, p ∈ progs -> op ∈ p -> op_wf op) /\
  reach (qstep (dctl 1)) (deq_conc_start 1 0 [], q_start progs) (s1, ls1) /\ quiescent ls1 /\
  map q_log ls1 = [[Pushed 7%nat]; [OutOfBounds]] /\ map q_prog ls1 = [[]; [QPop KPopFront; QPop KPopFront]] /\
  reach (qstep (dctl 1)) (s1, ls1) (s2, ls2) /\
  forall s' ls', reach (qstep (dctl 1)) (s2, ls2) (s', ls') ->
    map q_log ls' = [[Pushed 7%nat]; [OutOfBounds; Popped 7%nat]] /\ map q_prog ls' = [[]; [QPop KPopFront]].
Proof.
  exists c27_progs. eexists _, _, (c27_state 0).1, (c27_state 0).2. split; [all_calls|].
  split; [apply (run_reach _ [0; 0; 1; 1; 0; 1; 0; 0; 0; 0; 0; 0]%nat); vm_compute; reflexivity|].
  split; [intros t Ht; repeat (apply elem_of_cons in Ht as [-> | Ht]; [reflexivity|]); inversion Ht|].
  split; [reflexivity|]. split; [reflexivity|].
  split; [apply (run_reach _ [1; 1; 1; 1; 1; 1; 1; 1; 1; 1; 1; 1; 1; 1]%nat); vm_compute; reflexivity|].
  intros s' ls' H. destruct (c27_forever 0 _ H) as (k & E). injection E as -> ->. split; reflexivity.
Qed.
Print Assumptions C27_deque_blocks_after_overflow_refuted.

(** C28, what holds, for capacities up to 2^30: after any calls inside the contract, device_range() yields each occupied
    slot exactly once and nothing else, has length size(), and its values are the content (in some order). *)
Theorem C28_deque_range_partial : forall (T : Type) (opt : bool) (ord : nat -> list nat), (forall n, ord n ≡ₚ seq 0 n) ->
  forall junk cap (ops : list (dop T)) l rs d0 d rs', 0 < cap -> 2 * cap <= 2 ^ 31 -> (forall op, op ∈ ops -> dop_fits cap op) ->
  spec_drun cap [] ops = Ret (l, rs) -> deq_create junk cap = Ret d0 -> deq_run opt ord d0 ops = Ret (d, rs') ->
  exists r idx vals, d_range ord d = Ret (d_set_indices d r, idx, vals) /\ NoDup idx /\ Z.of_nat (length idx) = d_size d /\
    (forall i, i ∈ idx <-> exists p, i = Z.of_nat p /\ v_occ (d_v d) !! p = Some true) /\
    mapM (fun i => v_data (d_v d) !! Z.to_nat i ≫= id) idx = Some vals /\ vals ≡ₚ l.
Proof. exact @deq_range_exact. Qed.
Print Assumptions C28_deque_range_partial.
(** wrapped content: front is 2, the range lists slot 0 first *)
Example C28_ex : exists d0 d d' : deq Z, deq_create [] 3 = Ret d0 /\ deq_run false (seq 0) d0 [DPushBack 1; DPushFront 2] = Ret (d, [RBool true; RBool true]) /\
  d_range (seq 0) d = Ret (d', [0; 2], [1; 2]) /\ spec_drun 3 [] [DPushBack 1; DPushFront 2] = Ret ([2; 1], [RBool true; RBool true]).
Proof. eexists _, _, _. split; [reflexivity|]. split; [vm_compute; reflexivity|]. split; [vm_compute; reflexivity|]. reflexivity. Qed.
(** for capacity INT_MAX the computation of a wrapped range overflows *)
Theorem C28_large_capacity_refuted : forall (T : Type) (opt : bool) (ord : nat -> list nat), (forall n, ord n ≡ₚ seq 0 n) -> forall junk (x : T),
  exists d0 d rs, deq_create junk INT_MAX = Ret d0 /\ deq_run opt ord d0 [DPushFront x; DPushBack x; DPushBack x] = Ret (d, rs) /\
    deq_step opt ord d DRange = UB.
Proof. intros T opt ord Hord junk x. destruct (@big_capacity T opt ord Hord junk x) as (d0 & d & rs & H1 & H2 & _ & H3). eauto 10. Qed.
Print Assumptions C28_large_capacity_refuted.

(** C29: for every content and wrap-around position, clear() leaves a valid empty deque without occupied slots; for
    non-trivially destructible elements (opt = false) it runs exactly one destructor per stored element and does nothing
    else.  destroyDeviceObject is clear() for such elements. *)
Theorem C29_deque_clear_destroys_content : forall (T : Type) (opt : bool) (ord : nat -> list nat), (forall n, ord n ≡ₚ seq 0 n) ->
  forall junk cap (ops : list (dop T)) l rs d0 d rs', 0 < cap <= INT_MAX -> (forall op, op ∈ ops -> dop_fits cap op) ->
  spec_drun cap [] ops = Ret (l, rs) -> deq_create junk cap = Ret d0 -> deq_run opt ord d0 ops = Ret (d, rs') ->
  exists d', d_clear opt ord d = Ret d' /\ d_size d' = 0 /\ d_valid d' = true /\ (forall p, v_occ (d_v d') !! p <> Some true) /\
    (opt = false -> deq_destroy opt ord d = Ret d' /\ exists ps, v_ev (d_v d') = v_ev (d_v d) ++ ((fun p => EvDestroy (InSlot p)) <$> ps) /\ NoDup ps /\
      (forall p, p ∈ ps <-> v_occ (d_v d) !! p = Some true) /\ length ps = length l).
Proof. exact @deq_clear_exact. Qed.
Print Assumptions C29_deque_clear_destroys_content.
Example C29_ex : exists d0 d d' : deq Z, deq_create [] 3 = Ret d0 /\ deq_run false (seq 0) d0 [DPushBack 1; DPushFront 2] = Ret (d, [RBool true; RBool true]) /\
  d_clear false (seq 0) d = Ret d' /\ v_ev (d_v d') = v_ev (d_v d) ++ [EvDestroy (InSlot 0); EvDestroy (InSlot 2)].
Proof. eexists _, _, _. split; [reflexivity|]. split; [vm_compute; reflexivity|]. split; [vm_compute; reflexivity|]. reflexivity. Qed.

(** C30: for every capacity and sequence of push and pop calls, queue and stack return what a bounded FIFO queue and a
    bounded stack return; in particular the values returned by a queue's pops are a prefix, in order, of the values
    its pushes accepted. *)
Theorem C30_queue_is_fifo : forall (T : Type) (opt : bool) (ord : nat -> list nat), (forall n, ord n ≡ₚ seq 0 n) ->
  forall junk cap (ops : list (aqop T)), 0 < cap <= INT_MAX ->
  exists d0 d, deq_create junk cap = Ret d0 /\ deq_run opt ord d0 (queue_op <$> ops) = Ret (d, spec_aq (spec_queue cap) [] ops).
Proof. exact @queue_results. Qed.
Theorem C30_queue_returns_prefix_of_accepted : forall (T : Type) (opt : bool) (ord : nat -> list nat), (forall n, ord n ≡ₚ seq 0 n) ->
  forall junk cap (ops : list (aqop T)) d0 d rs, 0 < cap <= INT_MAX ->
  deq_create junk cap = Ret d0 -> deq_run opt ord d0 (queue_op <$> ops) = Ret (d, rs) -> returned rs `prefix_of` accepted ops rs.
Proof. exact @queue_order. Qed.
Theorem C30_stack_is_lifo : forall (T : Type) (opt : bool) (ord : nat -> list nat), (forall n, ord n ≡ₚ seq 0 n) ->
  forall junk cap (ops : list (aqop T)), 0 < cap <= INT_MAX ->
  exists d0 d, deq_create junk cap = Ret d0 /\ deq_run opt ord d0 (stack_op <$> ops) = Ret (d, spec_aq (spec_stack cap) [] ops).
Proof. exact @stack_results. Qed.
Print Assumptions C30_queue_is_fifo.
Print Assumptions C30_queue_returns_prefix_of_accepted.
Print Assumptions C30_stack_is_lifo.
Example C30_ex : spec_aq (spec_queue 2) [] [APush 1; APush 2; APush 3; APop; APop; APop] = [RBool true; RBool true; RBool false; ROpt (Some 1); ROpt (Some 2); ROpt None] /\
  spec_aq (spec_stack 2) [] [APush 1; APush 2; APush 3; APop; APop; APop] = [RBool true; RBool true; RBool false; ROpt (Some 2); ROpt (Some 1); ROpt None].
Proof. split; reflexivity. Qed.

(** C53 (deque), what holds, for non-trivially destructible elements: every element is constructed in an empty slot,
    read and destroyed while alive; after any calls exactly the occupied slots hold living elements; after
    destroyDeviceObject every slot has been destroyed as often as constructed.  Missing: the result object of the pops. *)
Theorem C53_deque_lifetimes_partial : forall (T : Type) (ord : nat -> list nat), (forall n, ord n ≡ₚ seq 0 n) ->
  forall junk cap (ops : list (dop T)) l rs d0 d rs', 0 < cap <= INT_MAX -> (forall op, op ∈ ops -> dop_fits cap op) ->
  spec_drun cap [] ops = Ret (l, rs) -> deq_create junk cap = Ret d0 -> deq_run false ord d0 ops = Ret (d, rs') ->
  lifetime_ok nothing (slot_events (v_ev (d_v d))) /\
  (forall p, live_after nothing (slot_events (v_ev (d_v d))) (InSlot p) = true <-> v_occ (d_v d) !! p = Some true) /\
  exists d', deq_destroy false ord d = Ret d' /\ lifetime_ok nothing (slot_events (v_ev (d_v d'))) /\
    forall p, constructs (InSlot p) (slot_events (v_ev (d_v d'))) = destroys (InSlot p) (slot_events (v_ev (d_v d'))).
Proof. exact @deq_lifetimes. Qed.
Print Assumptions C53_deque_lifetimes_partial.
Example C53_deque_ex : exists d0 d : deq Z, deq_create [] 3 = Ret d0 /\
  deq_run false (seq 0) d0 [DPushFront 6; DPushBack 7; DPopFront] = Ret (d, [RBool true; RBool true; ROpt (Some 6)]) /\
  slot_events (v_ev (d_v d)) = [EvConstruct (InSlot 2); EvConstruct (InSlot 0); EvRead (InSlot 2); EvDestroy (InSlot 2)].
Proof. eexists _, _. split; [reflexivity|]. split; vm_compute; reflexivity. Qed.
Theorem C53_deque_pop_refuted :
  (exists d0 d : deq Z, deq_create [] 2 = Ret d0 /\ deq_run false (seq 0) d0 [DPopFront] = Ret (d, [ROpt None]) /\
     all_events (v_ev (d_v d)) = [EvRead (InSlot 0); EvConstruct Result] /\ ~ lifetime_ok nothing (all_events (v_ev (d_v d)))) /\
  (exists d0 d : deq Z, deq_create [] 2 = Ret d0 /\ deq_run false (seq 0) d0 [DPushBack 5; DPopBack] = Ret (d, [RBool true; ROpt (Some 5)]) /\
     constructs Result (all_events (v_ev (d_v d))) = 2 /\ destroys Result (all_events (v_ev (d_v d))) = 0 /\ ~ lifetime_ok nothing (all_events (v_ev (d_v d)))).
Proof.
  split.
  - eexists _, _. split; [reflexivity|]. split; [vm_compute; reflexivity|]. split; [reflexivity|]. cbn. intros [H _]. discriminate.
  - eexists _, _. split; [reflexivity|]. split; [vm_compute; reflexivity|]. split; [reflexivity|]. split; [reflexivity|]. cbn. intros H.
    destruct H as (_ & _ & _ & _ & H & _). discriminate.
Qed.
Print Assumptions C53_deque_pop_refuted.
