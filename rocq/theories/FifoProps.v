(** C73: a concurrently used queue is first in, first out.  C74: a concurrently used vector or stack is last in, first out.  The notions ([fifo], [bounded], [lifo], [in_order]) are in FifoSpec.v. *)
From Verif Require Import Base Conc SlotModel SlotSpec VectorModel DequeModel DequeSpec FifoSpec FifoProofs FifoQueue FifoPair FifoStack FifoRefute FifoRefute2 FifoVPair.

(** C73, part: any number of threads push to and pop from a queue, in any schedule, and the elements the queue holds at the start plus the pushes of all programs are at most as many as its
    capacity.  Then at every moment there is an order of the calls, respecting their order in time, in which each call does what a first-in first-out queue does.  A pop may be refused although
    the queue is not empty, but only if it holds fewer elements than there are popping threads (or after a pop that was rejected late, see C22).  Missing: more pushes than slots, where it is
    false (see below), except for one producer and one consumer. *)
Theorem C73_fifo_partial : forall (T : Type) (cap b : nat) (l : list T), (b < cap)%nat -> Z.of_nat cap <= INT_MAX -> (length l <= cap)%nat ->
  forall progs : list (list (qop T)), (forall p op, p ∈ progs -> op ∈ p -> queue_call op) -> (length l + push_calls progs <= cap)%nat ->
  forall past s ls, passes (qstep (dctl cap)) (deq_conc_start cap b l, q_start progs) past (s, ls) ->
  exists h late M, fifo (popping_threads progs) false l h late M /\ in_order progs past ls h.
Proof.
  intros T cap b l Hb Hcap Hl progs Hq Hroom past s ls R. destruct (queue_run cap b l Hb Hcap Hl progs Hq Hroom past s ls R) as (W & P & H & late & V & A).
  exists H, late, (drop (length P) W). split; [apply V|exact A].
Qed.
Print Assumptions C73_fifo_partial.
(** ... if at most one of the threads pops, a pop is refused only if the queue is empty, and no pop is rejected late *)
Theorem C73_one_popping_thread : forall (T : Type) (cap b : nat) (l : list T), (b < cap)%nat -> Z.of_nat cap <= INT_MAX -> (length l <= cap)%nat ->
  forall progs : list (list (qop T)), (forall p op, p ∈ progs -> op ∈ p -> queue_call op) -> (length l + push_calls progs <= cap)%nat -> popping_threads progs = 1%nat ->
  forall past s ls, passes (qstep (dctl cap)) (deq_conc_start cap b l, q_start progs) past (s, ls) ->
  exists h M, fifo 1 false l h false M /\ in_order progs past ls h.
Proof.
  intros T cap b l Hb Hcap Hl progs Hq Hroom H1 past s ls R. destruct (queue_run cap b l Hb Hcap Hl progs Hq Hroom past s ls R) as (W & P & H & late & V & A).
  destruct (v_one _ _ _ _ _ _ _ _ _ _ V H1) as [-> _]. exists H, (drop (length P) W). split; [rewrite <- H1; apply V|exact A].
Qed.
Print Assumptions C73_one_popping_thread.
(** ... and when all calls have returned, none of them late, the queue holds exactly the elements of that order, oldest first, and is ready for any further use *)
Theorem C73_at_rest : forall (T : Type) (cap b : nat) (l : list T), (b < cap)%nat -> Z.of_nat cap <= INT_MAX -> (length l <= cap)%nat ->
  forall progs : list (list (qop T)), (forall p op, p ∈ progs -> op ∈ p -> queue_call op) -> (length l + push_calls progs <= cap)%nat ->
  forall past s ls, passes (qstep (dctl cap)) (deq_conc_start cap b l, q_start progs) past (s, ls) -> quiescent ls -> no_oob ls ->
  exists h M b', fifo (popping_threads progs) false l h false M /\ in_order progs past ls h /\ (b' < cap)%nat /\ s = deq_conc_start cap b' M.
Proof.
  intros T cap b l Hb Hcap Hl progs Hq Hroom past s ls R Hqu Hno. destruct (queue_run cap b l Hb Hcap Hl progs Hq Hroom past s ls R) as (W & P & H & late & V & A).
  pose proof (rest_late cap b l progs s ls W P H late V Hqu Hno) as ->.
  exists H, (drop (length P) W), (DequeProofs.ring_pos cap b (length P)). split; [apply V|]. split; [exact A|]. split.
  - pose proof (k_bnd _ _ _ _ _ _ _ _ _ (v_core _ _ _ _ _ _ _ _ _ _ V)). apply DequeProofs.ring_pos_lt; lia.
  - exact (rest_state cap b l Hb Hcap Hl progs Hq Hroom s ls W P H false (passes_reach cap b l progs past _ R) V Hqu Hno).
Qed.
Print Assumptions C73_at_rest.
(** ... one producing and one consuming thread: the queue is an exact bounded first-in first-out queue, for any number of calls, around the ring as often as they like *)
Theorem C73_one_producer_one_consumer : forall (T : Type) (cap b : nat) (l : list T), (b < cap)%nat -> Z.of_nat cap <= INT_MAX -> (length l <= cap)%nat ->
  forall prod cons : list (qop T), (forall op, op ∈ prod -> exists x, op = QPush KPushBack x) -> (forall op, op ∈ cons -> op = QPop KPopFront) ->
  forall past s ls, passes (qstep (dctl cap)) (deq_conc_start cap b l, q_start [prod; cons]) past (s, ls) ->
  exists h M, bounded cap l h M /\ in_order [prod; cons] past ls h /\ (quiescent ls -> exists b', (b' < cap)%nat /\ s = deq_conc_start cap b' M).
Proof.
  intros T cap b l Hb Hcap Hl prod cons Hprod Hcons past s ls R. destruct (pair_run cap b l Hb Hcap Hl prod cons Hprod Hcons past s ls R) as (tp & tc & W & N & H & -> & V & A).
  exists H, (drop N W). split; [apply V|]. split; [exact A|]. intros Hqu. exists (sl cap b N). split; [unfold sl; apply Nat.mod_upper_bound; lia|].
  apply (pair_rest cap b l Hb Hcap Hl prod cons Hprod Hcons s tp tc W N H (ppasses_reach cap b l prod cons past _ R) V); apply Hqu; [left|right; left].
Qed.
Print Assumptions C73_one_producer_one_consumer.
(** C73 in general is false: a queue of capacity 2 that holds 10; one thread pops, one pushes 11 and 12, one pops twice.  All calls return true, and the third thread gets 11 before 10: no order
    of the calls is first-in first-out, even one that respects only the order of each thread's own calls *)
Theorem C73_lapped_ring_refuted : exists (cap b : nat) (l : list nat) (progs : list (list (qop nat))), (b < cap)%nat /\ (length l <= cap)%nat /\ (forall p op, p ∈ progs -> op ∈ p -> queue_call op) /\
  exists s ls, reach (qstep (dctl cap)) (deq_conc_start cap b l, q_start progs) (s, ls) /\ finished ls /\ no_oob ls /\
  map q_log ls = [[Popped 12%nat]; [Pushed 11%nat; Pushed 12%nat]; [Popped 11%nat; Popped 10%nat]] /\ l = [10%nat] /\
  forall n h late M, accounts progs ls h -> ~ fifo n false l h late M.
Proof.
  exists 2%nat, 0%nat, [10%nat], w73_progs. split; [lia|]. split; [cbn; lia|]. split.
  - intros p op Hp Ho. repeat (apply elem_of_cons in Hp as [-> |Hp]; [repeat (apply elem_of_cons in Ho as [-> |Ho]; [exact Logic.I|]); inversion Ho|]). inversion Hp.
  - exists (deq_conc_start 2 1 []), w73_ls. split; [exact w73_run|]. split; [intros t Ht; repeat (apply elem_of_cons in Ht as [-> |Ht]; [split; reflexivity|]); inversion Ht|]. split.
    + intros t Ht. repeat (apply elem_of_cons in Ht as [-> |Ht]; [cbn; rewrite ?elem_of_cons; intros X; decompose [or] X; try discriminate; try (inversion H); try (inversion H0)|]). inversion Ht.
    + split; [reflexivity|]. split; [reflexivity|]. exact w73_none.
Qed.
Print Assumptions C73_lapped_ring_refuted.
(** ... and with several popping threads the weakening in C73_fifo_partial is needed: three threads pop, one pushes, within the capacity; a pop returns false although the queue holds an element all the time *)
Theorem C73_refused_only_if_empty_refuted : exists (cap b : nat) (l : list nat) (progs : list (list (qop nat))), (b < cap)%nat /\ (forall p op, p ∈ progs -> op ∈ p -> queue_call op) /\ (length l + push_calls progs <= cap)%nat /\
  exists past s ls, passes (qstep (dctl cap)) (deq_conc_start cap b l, q_start progs) past (s, ls) /\ finished ls /\
  map q_log ls = [[Popped 2%nat]; [Refused]; [Pushed 2%nat]; [Popped 1%nat]] /\ l = [1%nat] /\
  forall h late M, in_order progs past ls h -> ~ fifo 1 false l h late M.
Proof.
  exists 2%nat, 0%nat, [1%nat], w73b_progs. split; [lia|]. split.
  - intros p op Hp Ho. repeat (apply elem_of_cons in Hp as [-> |Hp]; [repeat (apply elem_of_cons in Ho as [-> |Ho]; [exact Logic.I|]); inversion Ho|]). inversion Hp.
  - split; [vm_compute; lia|]. destruct w73b_run as (past & s1 & R & HP). exists past, (deq_conc_start 2 0 []), w73b_ls. split; [exact R|]. split; [intros t Ht; repeat (apply elem_of_cons in Ht as [-> |Ht]; [split; reflexivity|]); inversion Ht|].
    split; [reflexivity|]. split; [reflexivity|]. intros h late M. exact (w73b_none past s1 h late M HP).
Qed.
Print Assumptions C73_refused_only_if_empty_refuted.
(** ... nor with one popping thread, if there are two pushing ones: a queue of capacity 2 that holds 10; one thread pushes 11 and sleeps after it has claimed a slot, one pushes 12 and then 13, one pops four times
    and gets 10, 13, 12, 11.  So one producer and one consumer, or pushes within the capacity, cannot be weakened *)
Theorem C73_two_producers_refuted : exists (cap b : nat) (l : list nat) (progs : list (list (qop nat))), (b < cap)%nat /\ (length l <= cap)%nat /\ (forall p op, p ∈ progs -> op ∈ p -> queue_call op) /\ popping_threads progs = 1%nat /\
  exists s ls, reach (qstep (dctl cap)) (deq_conc_start cap b l, q_start progs) (s, ls) /\ finished ls /\ no_oob ls /\
  map q_log ls = [[Pushed 11%nat]; [Pushed 12%nat; Pushed 13%nat]; [Popped 10%nat; Popped 13%nat; Popped 12%nat; Popped 11%nat]] /\ l = [10%nat] /\
  forall n h late M, accounts progs ls h -> ~ fifo n false l h late M.
Proof.
  exists 2%nat, 0%nat, [10%nat], w73c_progs. split; [lia|]. split; [cbn; lia|]. split; [|split; [reflexivity|]].
  - intros p op Hp Ho. repeat (apply elem_of_cons in Hp as [-> |Hp]; [repeat (apply elem_of_cons in Ho as [-> |Ho]; [exact Logic.I|]); inversion Ho|]). inversion Hp.
  - exists (deq_conc_start 2 0 []), w73c_ls. split; [exact w73c_run|]. split; [intros t Ht; repeat (apply elem_of_cons in Ht as [-> |Ht]; [split; reflexivity|]); inversion Ht|]. split.
    + intros t Ht. repeat (apply elem_of_cons in Ht as [-> |Ht]; [cbn [q_log]; intros X; repeat (apply elem_of_cons in X as [X|X]; [discriminate X|]); inversion X|]). inversion Ht.
    + split; [reflexivity|]. split; [reflexivity|]. exact w73c_none.
Qed.
Print Assumptions C73_two_producers_refuted.

(** the hypotheses are met: two pushers and two poppers on a queue of capacity 4 with an element; all calls return *)
Example C73_ex : let progs := [[QPush KPushBack 2%nat; QPop KPopFront]; [QPush KPushBack 3%nat]; [QPop KPopFront]] in
  (forall p op, p ∈ progs -> op ∈ p -> queue_call op) /\ (length [1%nat] + push_calls progs <= 4)%nat /\ popping_threads progs = 2%nat /\
  exists s ls, reach (qstep (dctl 4)) (deq_conc_start 4 3 [1%nat], q_start progs) (s, ls) /\ finished ls /\ map q_log ls = [[Pushed 2%nat; Popped 3%nat]; [Pushed 3%nat]; [Popped 1%nat]] /\ stored (q_data s) = [2%nat].
Proof.
  cbn zeta. split; [|split; [vm_compute; lia|split; [reflexivity|]]].
  - intros p op Hp Ho. repeat (apply elem_of_cons in Hp as [-> |Hp]; [repeat (apply elem_of_cons in Ho as [-> |Ho]; [exact Logic.I|]); inversion Ho|]). inversion Hp.
  - eexists _, _. split; [apply (run_reach _ (replicate 3 0 ++ replicate 4 1 ++ replicate 9 2 ++ [2] ++ replicate 6 0 ++ replicate 5 1 ++ replicate 10 0)%nat); vm_compute; reflexivity|].
    split; [intros t Ht; repeat (apply elem_of_cons in Ht as [-> |Ht]; [split; reflexivity|]); inversion Ht|]. split; reflexivity.
Qed.
(** one producer and one consumer go around a ring of capacity 1; a push finds it full, a pop finds it empty *)
Example C73_pair_ex : exists s ls, reach (qstep (dctl 1)) (deq_conc_start 1 0 ([] : list nat), q_start [[QPush KPushBack 1%nat; QPush KPushBack 2%nat; QPush KPushBack 3%nat]; [QPop KPopFront; QPop KPopFront]]) (s, ls) /\
  map q_log ls = [[Pushed 1%nat; Refused; Pushed 3%nat]; [Refused; Popped 1%nat]].
Proof. eexists _, _. split; [apply (run_reach _ (replicate 2 1 ++ replicate 9 0 ++ replicate 2 0 ++ replicate 10 1 ++ replicate 9 0)%nat); vm_compute; reflexivity|]. reflexivity. Qed.

(** C74, part: any number of threads only push to a vector, or only pop from it: at every moment there is an order of the calls, respecting their order in time, in which each call does what a bounded
    stack does; calls are refused exactly if the vector is full, or empty.  At rest its elements are those of that order. *)
Theorem C74_vector_pushes_partial : forall (T : Type) (cap : nat) (l : list T), (length l <= cap)%nat ->
  forall progs : list (list (qop T)), (forall p op, p ∈ progs -> op ∈ p -> exists x, op = QPush KPushBack x) ->
  forall past s ls, passes (qstep (vctl cap)) (vec_conc_start cap l, q_start progs) past (s, ls) ->
  exists h M, lifo cap 0 l h M /\ in_order progs past ls h /\ (quiescent ls -> q_data s = (Some <$> M) ++ replicate (cap - length M) None).
Proof. intros T cap l Hl progs Hop past s ls. apply vpush_run; assumption. Qed.
Print Assumptions C74_vector_pushes_partial.
Theorem C74_vector_pops_partial : forall (T : Type) (cap : nat) (l : list T), (length l <= cap)%nat ->
  forall progs : list (list (qop T)), (forall p op, p ∈ progs -> op ∈ p -> op = QPop KPopBack) ->
  forall past s ls, passes (qstep (vctl cap)) (vec_conc_start cap l, q_start progs) past (s, ls) ->
  exists h M, lifo cap 0 l h M /\ in_order progs past ls h /\ (quiescent ls -> q_data s = (Some <$> M) ++ replicate (cap - length M) None).
Proof. intros T cap l Hl progs Hop past s ls. apply vpop_run; assumption. Qed.
Print Assumptions C74_vector_pops_partial.
(** ... and to or from a stack, which is exact, too.  At rest, if no call was rejected late, the elements are those of that order, the bottom one in the same slot as before. *)
Theorem C74_stack_pushes_partial : forall (T : Type) (cap b : nat) (l : list T), (b < cap)%nat -> Z.of_nat cap <= INT_MAX -> (length l <= cap)%nat ->
  forall progs : list (list (qop T)), (forall p op, p ∈ progs -> op ∈ p -> exists x, op = QPush KPushBack x) ->
  forall past s ls, passes (qstep (dctl cap)) (deq_conc_start cap b l, q_start progs) past (s, ls) ->
  exists h M, lifo cap 0 l h M /\ in_order progs past ls h /\ (quiescent ls -> no_oob ls -> q_data s = q_data (deq_conc_start cap b M)).
Proof. intros T cap b l Hb Hcap Hl progs Hop past s ls. apply dpush_run; assumption. Qed.
Print Assumptions C74_stack_pushes_partial.
Theorem C74_stack_pops_partial : forall (T : Type) (cap b : nat) (l : list T), (b < cap)%nat -> Z.of_nat cap <= INT_MAX -> (length l <= cap)%nat ->
  forall progs : list (list (qop T)), (forall p op, p ∈ progs -> op ∈ p -> op = QPop KPopBack) ->
  forall past s ls, passes (qstep (dctl cap)) (deq_conc_start cap b l, q_start progs) past (s, ls) ->
  exists h M, lifo cap 0 l h M /\ in_order progs past ls h /\ (quiescent ls -> no_oob ls -> q_data s = q_data (deq_conc_start cap b M)).
Proof. intros T cap b l Hb Hcap Hl progs Hop past s ls. apply dpop_run; assumption. Qed.
Print Assumptions C74_stack_pops_partial.
(** ... one thread that pushes to a vector and one that pops from it: the vector is an exact bounded stack, for any number of calls *)
Theorem C74_vector_one_pusher_one_popper : forall (T : Type) (cap : nat) (l : list T), (length l <= cap)%nat ->
  forall prod cons : list (qop T), (forall op, op ∈ prod -> exists x, op = QPush KPushBack x) -> (forall op, op ∈ cons -> op = QPop KPopBack) ->
  forall past s ls, passes (qstep (vctl cap)) (vec_conc_start cap l, q_start [prod; cons]) past (s, ls) ->
  exists h M, lifo cap 0 l h M /\ in_order [prod; cons] past ls h /\ no_oob ls /\ (quiescent ls -> s = vec_conc_start cap M).
Proof.
  intros T cap l Hl prod cons Hprod Hcons past s ls R. destruct (vpair_run cap l Hl prod cons Hprod Hcons past s ls R) as (tp & tc & M & v & H & -> & V & A).
  exists H, M. split; [apply V|]. split; [exact A|]. split.
  - intros t Ht. apply elem_of_cons in Ht as [-> |Ht]; [apply V|]. apply elem_of_list_singleton in Ht as ->. apply V.
  - intros Hqu. apply (vpair_rest cap l Hl prod cons Hprod Hcons s tp tc M v H (vppasses_reach cap l prod cons past _ R) V); apply Hqu; [left|right; left].
Qed.
Print Assumptions C74_vector_one_pusher_one_popper.
(** ... but not a stack, even with one call each: a full one of capacity 2, with 1 at the bottom and 2 on top.  One thread pops and one pushes 3, both return true: the pop returns
    the bottom element 1, and the stack holds 3 below 2 then.  The pop has decremented the size but not yet the end, so that the push goes around the ring *)
Theorem C74_stack_one_push_one_pop_refuted : exists (cap b : nat) (l : list nat) (progs : list (list (qop nat))), (b < cap)%nat /\ (length l <= cap)%nat /\ progs = [[QPush KPushBack 3%nat]; [QPop KPopBack]] /\
  exists s ls, reach (qstep (dctl cap)) (deq_conc_start cap b l, q_start progs) (s, ls) /\ finished ls /\
  map q_log ls = [[Pushed 3%nat]; [Popped 1%nat]] /\ l = [1%nat; 2%nat] /\ s = deq_conc_start cap b [3%nat; 2%nat] /\
  forall k h M, accounts progs ls h -> ~ lifo cap k l h M.
Proof.
  exists 2%nat, 0%nat, [1%nat; 2%nat], w74c_progs. split; [lia|]. split; [cbn; lia|]. split; [reflexivity|].
  exists (deq_conc_start 2 0 [3%nat; 2%nat]), w74c_ls. split; [exact w74c_run|]. split; [intros t Ht; repeat (apply elem_of_cons in Ht as [-> |Ht]; [split; reflexivity|]); inversion Ht|].
  split; [reflexivity|]. split; [reflexivity|]. split; [reflexivity|]. intros k h M. exact (w74c_none 2 k h M).
Qed.
Print Assumptions C74_stack_one_push_one_pop_refuted.
(** C74 in general is false: a vector of capacity 2 that holds 1 and 2.  One thread pops and sleeps, one pushes 3, 4 and 5, one pops four times.  All calls return true, but 3 lies on top of 1 before the pop that
    returns 1 begins, and is popped after it: no order of the calls that respects their order in time is last-in first-out *)
Theorem C74_vector_order_refuted : exists (cap : nat) (l : list nat) (progs : list (list (qop nat))), (length l <= cap)%nat /\ (forall p op, p ∈ progs -> op ∈ p -> back_call op) /\
  exists past s ls, passes (qstep (vctl cap)) (vec_conc_start cap l, q_start progs) past (s, ls) /\ finished ls /\
  map q_log ls = [[Popped 5%nat]; [Pushed 3%nat; Pushed 4%nat; Pushed 5%nat]; [Popped 2%nat; Popped 1%nat; Popped 3%nat; Popped 4%nat]] /\ l = [1%nat; 2%nat] /\
  forall k h M, in_order progs past ls h -> ~ lifo cap k l h M.
Proof.
  exists 2%nat, [1%nat; 2%nat], w74_progs. split; [cbn; lia|]. split.
  - intros p op Hp Ho. repeat (apply elem_of_cons in Hp as [-> |Hp]; [repeat (apply elem_of_cons in Ho as [-> |Ho]; [exact Logic.I|]); inversion Ho|]). inversion Hp.
  - destruct w74_vector as (past & s1 & R & HP). exists past, (vec_conc_start 2 []), w74_ls. split; [exact R|]. split; [intros t Ht; repeat (apply elem_of_cons in Ht as [-> |Ht]; [split; reflexivity|]); inversion Ht|].
    split; [reflexivity|]. split; [reflexivity|]. intros k h M. exact (w74_none past s1 2 k h M HP).
Qed.
Print Assumptions C74_vector_order_refuted.
(** ... and the same for the stack *)
Theorem C74_stack_order_refuted : exists (cap b : nat) (l : list nat) (progs : list (list (qop nat))), (b < cap)%nat /\ (length l <= cap)%nat /\ (forall p op, p ∈ progs -> op ∈ p -> back_call op) /\
  exists past s ls, passes (qstep (dctl cap)) (deq_conc_start cap b l, q_start progs) past (s, ls) /\ finished ls /\
  map q_log ls = [[Popped 5%nat]; [Pushed 3%nat; Pushed 4%nat; Pushed 5%nat]; [Popped 2%nat; Popped 1%nat; Popped 3%nat; Popped 4%nat]] /\ l = [1%nat; 2%nat] /\
  forall k h M, in_order progs past ls h -> ~ lifo cap k l h M.
Proof.
  exists 2%nat, 0%nat, [1%nat; 2%nat], w74_progs. split; [lia|]. split; [cbn; lia|]. split.
  - intros p op Hp Ho. repeat (apply elem_of_cons in Hp as [-> |Hp]; [repeat (apply elem_of_cons in Ho as [-> |Ho]; [exact Logic.I|]); inversion Ho|]). inversion Hp.
  - destruct w74_stack as (past & s1 & R & HP). exists past, (deq_conc_start 2 0 []), w74_ls. split; [exact R|]. split; [intros t Ht; repeat (apply elem_of_cons in Ht as [-> |Ht]; [split; reflexivity|]); inversion Ht|].
    split; [reflexivity|]. split; [reflexivity|]. intros k h M. exact (w74_none past s1 2 k h M HP).
Qed.
Print Assumptions C74_stack_order_refuted.
(** the hypotheses are met: three pushes by two threads to a vector with two free slots; two pops of a stack with one element *)
Example C74_ex : exists s ls, reach (qstep (vctl 3)) (vec_conc_start 3 [1%nat], q_start [[QPush KPushBack 2%nat]; [QPush KPushBack 3%nat; QPush KPushBack 4%nat]]) (s, ls) /\
  map q_log ls = [[Pushed 2%nat]; [Pushed 3%nat; Refused]] /\ stored (q_data s) = [1; 3; 2]%nat.
Proof. eexists _, _. split; [apply (run_reach _ (replicate 2 0 ++ replicate 3 1 ++ replicate 6 0 ++ replicate 5 1 ++ replicate 2 1)%nat); vm_compute; reflexivity|]. split; reflexivity. Qed.
Example C74_stack_ex : exists s ls, reach (qstep (dctl 3)) (deq_conc_start 3 2 [1%nat; 2%nat], q_start [[QPop KPopBack]; [QPop KPopBack; QPop KPopBack]]) (s, ls) /\
  map q_log ls = [[Popped 1%nat]; [Popped 2%nat; Refused]] /\ stored (q_data s) = [].
Proof. eexists _, _. split; [apply (run_reach _ (replicate 3 0 ++ replicate 4 1 ++ replicate 7 0 ++ replicate 6 1 ++ replicate 2 1)%nat); vm_compute; reflexivity|]. split; reflexivity. Qed.
(** one pusher and one popper on a vector of capacity 1: the push waits for the slot that the pop has claimed before; a push finds it full, a pop finds it empty *)
Example C74_pair_ex : exists s ls, reach (qstep (vctl 1)) (vec_conc_start 1 [1%nat], q_start [[QPush KPushBack 2%nat; QPush KPushBack 3%nat; QPush KPushBack 4%nat]; [QPop KPopBack; QPop KPopBack; QPop KPopBack]]) (s, ls) /\
  map q_log ls = [[Refused; Pushed 3%nat; Pushed 4%nat]; [Popped 1%nat; Popped 3%nat; Refused]] /\ stored (q_data s) = [4%nat].
Proof. eexists _, _. split; [apply (run_reach _ (replicate 2 0 ++ replicate 3 1 ++ replicate 3 0 ++ replicate 6 1 ++ replicate 5 0 ++ replicate 9 1 ++ replicate 2 1 ++ replicate 8 0)%nat); vm_compute; reflexivity|]. split; reflexivity. Qed.
