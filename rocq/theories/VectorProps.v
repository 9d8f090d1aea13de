(** Property theorems C18-C23 and the vector part of C53: vector.cuh *)
From Verif Require Import Base Conc SlotModel SlotSpec Lifetime VectorModel VectorSpec VectorProofs VectorConcProofs.

(** C18: for every capacity 1..INT_MAX, element type, order of execution of the parallel loops and sequence of
    calls (whose range lengths fit index_t), the results are those of a list bounded by the capacity; a call
    outside its contract is UB in both; afterwards valid() is true and device_range() is the list.
    [ord n] is the order in which a parallel loop of n iterations runs. *)
Theorem C18_vector_is_bounded_list : forall (T : Type) (opt : bool) (ord : nat -> list nat), (forall n, ord n ≡ₚ seq 0 n) ->
  forall cap (ops : list (vop T)), 0 < cap <= INT_MAX -> (forall op, op ∈ ops -> op_fits cap op) ->
  exists v0, vec_create cap = Ret v0 /\
  match spec_vrun cap [] ops with
  | Ret (l, rs) => exists v, vec_run opt ord v0 ops = Ret (v, rs) /\ v_valid v = true /\ v_range v = Ret l
  | UB => vec_run opt ord v0 ops = UB
  | Hang => False
  end.
Proof. exact @vec_refines. Qed.
Print Assumptions C18_vector_is_bounded_list.
Example C18_ex : exists v0 v, vec_create 3 = Ret v0 /\
  vec_run false (fun n => rev (seq 0 n)) v0
    [VPop; VPush 5; VInsert 1 [6; 7]; VPush 8; VFull; VInsert 3 [9]; VBack; VErase 1 3; VRange; VPop; VEmpty; VValid] =
  Ret (v, [ROpt None; RBool true; RUnit; RBool false; RBool true; RUnit; RVal 7; RUnit; RList [5]; ROpt (Some 5); RBool true; RBool true]).
Proof. eexists _, _. split; [reflexivity|]. vm_compute. reflexivity. Qed.
(** the sequential functions are the step machine below with nobody else running *)
Theorem C18_push_back_alone : forall (T : Type) cap (s : qshared T Z) x v' b i ls t rest,
  length (q_occ s) = cap -> - 2 ^ 31 <= q_c s < INT_MAX ->
  v_push_back (as_vec s) x = Ret (v', b) -> ls !! i = Some t -> q_prog t = QPush KPushBack x :: rest -> q_pc t = QIdle ->
  exists s' r, reach (qstep (vctl cap)) (s, ls) (s', <[i := finish t r]> ls) /\ same_vec s' v' /\
    (b = true <-> r = Pushed x) /\ (b = false <-> r = Refused \/ r = OutOfBounds).
Proof. exact @solo_push_back. Qed.
Theorem C18_pop_back_alone : forall (T : Type) cap (s : qshared T Z) v' o i ls t rest,
  length (q_occ s) = cap -> - 2 ^ 31 < q_c s <= INT_MAX ->
  v_pop_back (as_vec s) = Ret (v', o) -> ls !! i = Some t -> q_prog t = QPop KPopBack :: rest -> q_pc t = QIdle ->
  exists s' r, reach (qstep (vctl cap)) (s, ls) (s', <[i := finish t r]> ls) /\ same_vec s' v' /\
    match o with Some y => r = Popped y | None => r = Refused \/ r = OutOfBounds end.
Proof. exact @solo_pop_back. Qed.
Print Assumptions C18_push_back_alone.
Print Assumptions C18_pop_back_alone.

(** C19: for every capacity, initial content, number of threads, programs of push_back/pop_back calls and
    interleaving: initial content + pushed = popped + stored, as multisets (calls that have moved their element but
    not yet returned are counted on the side of what they have done). *)
Theorem C19_vector_conserves_elements : forall (T : Type) (cap : nat) (l : list T), (length l <= cap)%nat ->
  forall progs : list (list (qop T)), (forall p op, p ∈ progs -> op ∈ p -> vector_call op) ->
  forall (_ : EqDecision T) s ls, reach (qstep (vctl cap)) (vec_conc_start cap l, q_start progs) (s, ls) ->
  l ++ all_pushed ls ≡ₚ all_popped ls ++ stored (q_data s).
Proof. exact @vec_conservation. Qed.
Print Assumptions C19_vector_conserves_elements.
(** ... no thread ever gets stuck on an access outside the arrays or to a dead element (the step function returns
    None on those), no two threads construct, read or destroy in the same slot at the same time, and elements are
    constructed in empty slots, read and destroyed in filled ones.  Missing for the full C19: the copy of _data[0]
    made on entry to pop_back, see the next theorem. *)
Theorem C19_vector_access_partial : forall (T : Type) (cap : nat) (l : list T), (length l <= cap)%nat ->
  forall progs : list (list (qop T)), (forall p op, p ∈ progs -> op ∈ p -> vector_call op) ->
  forall s ls, reach (qstep (vctl cap)) (vec_conc_start cap l, q_start progs) (s, ls) ->
  (forall i t, ls !! i = Some t -> q_prog t <> [] -> qstep (vctl cap) i s t <> None) /\
  (forall i j ti tj p, ls !! i = Some ti -> ls !! j = Some tj -> element_access ti = Some p -> element_access tj = Some p -> i = j) /\
  (forall i t p, ls !! i = Some t -> element_access t = Some p -> (p < cap)%nat /\
     exists d, q_data s !! p = Some d /\ (q_pc t = QConstruct p -> d = None) /\ (q_pc t <> QConstruct p -> d <> None)).
Proof. exact @vec_access. Qed.
Print Assumptions C19_vector_access_partial.
(** pop_back initialises its result with a copy of _data[0] before taking any lock: this races with a push_back
    constructing (or a pop_back destroying) the element in slot 0 *)
Theorem C19_vector_init_copy_race_refuted : exists (progs : list (list (qop nat))) s ls t1 t2,
  (forall p op, p ∈ progs -> op ∈ p -> vector_call op) /\
  reach (qstep (vctl 2)) (vec_conc_start 2 [], q_start progs) (s, ls) /\
  ls !! 0%nat = Some t1 /\ ls !! 1%nat = Some t2 /\ element_write t1 = Some 0%nat /\ init_read t2 = true.
Proof.
  exists [[QPush KPushBack 5%nat]; [QPop KPopBack]]. eexists _, _, _, _. split.
  - intros p op Hp Hop. repeat (apply elem_of_cons in Hp as [-> | Hp]; [repeat (apply elem_of_cons in Hop as [-> | Hop]; [exact I|]); inversion Hop|]). inversion Hp.
  - split; [apply (run_reach _ [0; 0; 0; 0; 0]%nat); vm_compute; reflexivity|]. repeat split; reflexivity.
Qed.
Print Assumptions C19_vector_init_copy_race_refuted.
(** three threads; one pop is waiting for the element of a push that has claimed slot 1 *)
Example C19_ex : exists s ls, reach (qstep (vctl 2)) (vec_conc_start 2 [1%nat], q_start
     [[QPush KPushBack 2%nat]; [QPop KPopBack; QPop KPopBack]; [QPush KPushBack 3%nat]]) (s, ls) /\
  map q_pc ls = [QTry 1; QTry 1; QIdle] /\ all_pushed ls = [] /\ stored (q_data s) = [1%nat].
Proof. eexists _, _. split; [apply (run_reach _ [0; 0; 0; 1; 1; 1]%nat); vm_compute; reflexivity|]. repeat split. Qed.

(** C20: from every reachable state some schedule completes all calls of all threads. *)
Theorem C20_vector_calls_can_complete : forall (T : Type) (cap : nat) (l : list T), (length l <= cap)%nat ->
  forall progs : list (list (qop T)), (forall p op, p ∈ progs -> op ∈ p -> vector_call op) ->
  forall s ls, reach (qstep (vctl cap)) (vec_conc_start cap l, q_start progs) (s, ls) ->
  exists s' ls', reach (qstep (vctl cap)) (s, ls) (s', ls') /\ finished ls'.
Proof. exact @vec_can_finish. Qed.
Print Assumptions C20_vector_calls_can_complete.

(** C21: at quiescence, if no call was rejected after changing the counter: size() is initial size + pushes - pops
    and valid() is true; always (also after such rejections): size() is the number of stored elements, occupied and
    living slots are exactly [0,size()), and no lock is held. *)
Theorem C21_vector_valid_at_quiescence : forall (T : Type) (cap : nat) (l : list T), (length l <= cap)%nat ->
  forall progs : list (list (qop T)), (forall p op, p ∈ progs -> op ∈ p -> vector_call op) ->
  forall s ls, reach (qstep (vctl cap)) (vec_conc_start cap l, q_start progs) (s, ls) -> quiescent ls -> no_oob ls ->
  v_size (as_vec s) = Z.of_nat (length l) + Z.of_nat (length (ls ≫= fun t => pushed_by (q_log t))) - Z.of_nat (length (ls ≫= fun t => popped_by (q_log t))) /\
  v_valid (as_vec s) = true.
Proof. exact @vec_valid_at_rest. Qed.
Theorem C21_vector_slots_at_quiescence : forall (T : Type) (cap : nat) (l : list T), (length l <= cap)%nat ->
  forall progs : list (list (qop T)), (forall p op, p ∈ progs -> op ∈ p -> vector_call op) ->
  forall s ls, reach (qstep (vctl cap)) (vec_conc_start cap l, q_start progs) (s, ls) -> quiescent ls ->
  v_size (as_vec s) = Z.of_nat (length (stored (q_data s))) /\
  (forall p, (p < cap)%nat -> q_occ s !! p = Some (bool_decide (Z.of_nat p < v_size (as_vec s))) /\ q_locks s !! p = Some false /\
      exists d, q_data s !! p = Some d /\ (d <> None <-> Z.of_nat p < v_size (as_vec s))) /\
  bcount (q_occ s) = v_size (as_vec s) /\ bcount (q_locks s) = 0 /\ v_capacity (as_vec s) = Z.of_nat cap.
Proof. exact @vec_quiescent. Qed.
Print Assumptions C21_vector_valid_at_quiescence.
Print Assumptions C21_vector_slots_at_quiescence.
Example C21_ex : exists s ls, reach (qstep (vctl 2)) (vec_conc_start 2 [1%nat], q_start
     [[QPush KPushBack 2%nat]; [QPop KPopBack]]) (s, ls) /\ quiescent ls /\ no_oob ls /\ v_size (as_vec s) = 1 /\
  map q_log ls = [[Pushed 2%nat]; [Popped 2%nat]].
Proof.
  eexists _, _. split; [apply (run_reach _ [0; 0; 0; 1; 1; 1; 1; 1; 1; 0; 0; 0; 0; 0; 1; 1; 1; 1; 1; 1]%nat); vm_compute; reflexivity|].
  split; [|split; [|split; reflexivity]]; intros t Ht; repeat (apply elem_of_cons in Ht as [-> | Ht]; [try reflexivity|]); try inversion Ht.
  all: intros H; repeat (apply elem_of_cons in H as [H|H]; [discriminate|]); inversion H.
Qed.

(** C22, what holds: a call refused by the preemptive check changes nothing; a call rejected later changes no
    element, occupancy bit or lock (and by C21 size() still is the number of stored elements at quiescence).
    Missing: such a late rejection leaves the internal size counter off by one, see the next theorem. *)
Theorem C22_rejected_calls_partial : forall (T C : Type) (ctl : C -> qkind -> nat -> cres C) i s (t : qthread T) s' t',
  qstep ctl i s t = Some (s', t') ->
  (q_log t' = q_log t ++ [Refused] -> (forall p, q_pc t <> QUnlock p (Some Refused)) -> s' = s) /\
  (q_log t' = q_log t ++ [OutOfBounds] -> (forall p, q_pc t <> QUnlock p (Some OutOfBounds)) ->
     q_data s' = q_data s /\ q_occ s' = q_occ s /\ q_locks s' = q_locks s).
Proof. exact @rejected_step. Qed.
Print Assumptions C22_rejected_calls_partial.
(** C22 is false in general: two pushers pass the full() check of an empty vector of capacity 1; one push returns
    false; nobody is running any more, valid() is false; the next pop_back returns false although an element is
    stored (size() = 1). *)
Theorem C22_rejected_call_leaves_trace_refuted : exists (progs : list (list (qop nat))) s ls s2 ls2,
  (forall p op, p ∈ progs -> op ∈ p -> vector_call op) /\
  reach (qstep (vctl 1)) (vec_conc_start 1 [], q_start progs) (s, ls) /\ quiescent ls /\
  v_valid (as_vec (vec_conc_start (T:=nat) 1 [])) = true /\ v_valid (as_vec s) = false /\ v_size (as_vec s) = 1 /\
  map q_log ls = [[Pushed 7%nat]; [OutOfBounds]] /\ map q_prog ls = [[]; [QPop KPopBack]] /\
  reach (qstep (vctl 1)) (s, ls) (s2, ls2) /\ finished ls2 /\ map q_log ls2 = [[Pushed 7%nat]; [OutOfBounds; OutOfBounds]] /\
  stored (q_data s2) = [7%nat].
Proof.
  exists [[QPush KPushBack 7%nat]; [QPush KPushBack 8%nat; QPop KPopBack]]. eexists _, _, _, _. split.
  - intros p op Hp Hop. repeat (apply elem_of_cons in Hp as [-> | Hp]; [repeat (apply elem_of_cons in Hop as [-> | Hop]; [exact I|]); inversion Hop|]). inversion Hp.
  - split; [apply (run_reach _ [0; 0; 1; 1; 0; 1; 0; 0; 0; 0; 0]%nat); vm_compute; reflexivity|].
    split; [intros t Ht; repeat (apply elem_of_cons in Ht as [-> | Ht]; [reflexivity|]); inversion Ht|].
    split; [reflexivity|]. split; [vm_compute; reflexivity|]. split; [vm_compute; reflexivity|]. split; [reflexivity|]. split; [reflexivity|].
    split; [apply (run_reach _ [1; 1; 1]%nat); vm_compute; reflexivity|].
    split; [intros t Ht; repeat (apply elem_of_cons in Ht as [-> | Ht]; [split; reflexivity|]); inversion Ht|]. split; reflexivity.
Qed.
Print Assumptions C22_rejected_call_leaves_trace_refuted.

(** C23 is false: a capacity-2 vector holding one element, wavefront 0 with two lanes pushing, wavefront 1 with two
    lanes popping.  Some schedule reaches a state from which no schedule ever completes any of the four calls. *)
Theorem C23_lane_serialised_deadlock_refuted : exists (progs : list (list (qop nat))) wave s ls,
  (forall p op, p ∈ progs -> op ∈ p -> vector_call op) /\
  rtc (hip_step (vctl 2) wave) (vec_conc_start 2 [7%nat], q_start progs) (s, ls) /\
  forall s' ls', rtc (hip_step (vctl 2) wave) (s, ls) (s', ls') -> length ls' = 4%nat /\ forall t, t ∈ ls' -> q_log t = [] /\ q_prog t <> [].
Proof.
  exists c23_progs, c23_wave, (c23_state 0 0).1, (c23_state 0 0).2. split.
  - intros p op Hp Hop. repeat (apply elem_of_cons in Hp as [-> | Hp]; [repeat (apply elem_of_cons in Hop as [-> | Hop]; [exact I|]); inversion Hop|]). inversion Hp.
  - split; [exact c23_deadlock|]. intros s' ls' H. destruct (c23_forever 0 0 _ H) as (a & b & E). injection E as -> ->.
    split; [reflexivity|]. intros t Ht. repeat (apply elem_of_cons in Ht as [-> | Ht]; [split; [reflexivity|discriminate]|]). inversion Ht.
Qed.
Print Assumptions C23_lane_serialised_deadlock_refuted.

(** C53 (vector), what holds, for non-trivially destructible elements: every element is constructed in an empty slot,
    read and destroyed while alive; after any calls exactly the elements below size() are alive; after
    destroyDeviceObject every slot has been destroyed as often as constructed.  Missing: the result object of
    pop_back, see the next theorem. *)
Theorem C53_vector_lifetimes_partial : forall (T : Type) (ord : nat -> list nat), (forall n, ord n ≡ₚ seq 0 n) ->
  forall cap (ops : list (vop T)) v0 v rs, 0 < cap <= INT_MAX -> (forall op, op ∈ ops -> op_fits cap op) ->
  vec_create cap = Ret v0 -> vec_run false ord v0 ops = Ret (v, rs) ->
  lifetime_ok nothing (slot_events (v_ev v)) /\
  (forall p, live_after nothing (slot_events (v_ev v)) (InSlot p) = true <-> Z.of_nat p < v_size v) /\
  exists v', vec_destroy false ord v = Ret v' /\ lifetime_ok nothing (slot_events (v_ev v')) /\
    forall p, constructs (InSlot p) (slot_events (v_ev v')) = destroys (InSlot p) (slot_events (v_ev v')).
Proof. exact @vec_lifetimes. Qed.
Print Assumptions C53_vector_lifetimes_partial.
Example C53_vector_ex : exists v0 v, vec_create 3 = Ret v0 /\
  vec_run false (seq 0) v0 [VInsert 0 [6; 7]; VPop; VPush 8] = Ret (v, [RUnit; ROpt (Some 7); RBool true]) /\
  slot_events (v_ev v) = [EvConstruct (InSlot 0); EvConstruct (InSlot 1); EvRead (InSlot 1); EvDestroy (InSlot 1); EvConstruct (InSlot 1)].
Proof. eexists _, _. split; [reflexivity|]. split; vm_compute; reflexivity. Qed.
(** pop_back reads _data[0] even if no element lives there (empty vector), and on success constructs its result a
    second time on top of the first copy, which is never destroyed *)
Theorem C53_vector_pop_back_refuted :
  (exists v0 v : vec nat, vec_create 2 = Ret v0 /\ vec_run false (seq 0) v0 [VPop] = Ret (v, [ROpt None]) /\
     all_events (v_ev v) = [EvRead (InSlot 0); EvConstruct Result] /\ ~ lifetime_ok nothing (all_events (v_ev v))) /\
  (exists v0 v : vec nat, vec_create 2 = Ret v0 /\ vec_run false (seq 0) v0 [VPush 5%nat; VPop] = Ret (v, [RBool true; ROpt (Some 5%nat)]) /\
     constructs Result (all_events (v_ev v)) = 2 /\ destroys Result (all_events (v_ev v)) = 0 /\ ~ lifetime_ok nothing (all_events (v_ev v))).
Proof.
  split.
  - eexists _, _. split; [reflexivity|]. split; [vm_compute; reflexivity|]. split; [reflexivity|]. cbn. intros [H _]. discriminate.
  - eexists _, _. split; [reflexivity|]. split; [vm_compute; reflexivity|]. split; [reflexivity|]. split; [reflexivity|]. cbn. intros H.
    destruct H as (_ & _ & _ & _ & H & _). discriminate.
Qed.
Print Assumptions C53_vector_pop_back_refuted.
