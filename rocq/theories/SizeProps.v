(** C86: size(), empty() and full() called while a kernel runs. *)
From Verif Require Import Base Conc SlotModel SlotSpec VectorModel VectorSpec DequeModel DequeSpec RejectProofs VDebtSpec VHistSpec VHistProofs DDebtSpec DHistSpec DHistProofs SizeSpec SizeProofs.
From Verif Require Import UnorderedModel UnorderedSpec UConcModel UConcSpec UEraseModel UEraseSpec UHistSpec UHistProofs UOneSpec UOneTop UAnyDefs UAnySpec UAnyTop UAnyProps USizeProofs.

(** ** vector: after any history (C84), which leaves the list l and the debt k, at every moment of the next kernel size() is a number c, clamped to [0, capacity], that differs from
    |l| + k + (what the returned calls have changed) by at most the pushes and pops that are running; empty() and full() are the tests of the same c *)
Theorem C86_vector_size : forall (T : Type) (HT : EqDecision T) (opt : bool) (ord : nat -> list nat), (forall n, ord n ≡ₚ seq 0 n) ->
  forall cap : nat, 0 < Z.of_nat cap <= INT_MAX -> forall v0 (ps : list (@VHistSpec.phase T)) v,
  vec_create (T:=T) (Z.of_nat cap) = Ret v0 -> VHistSpec.history_run opt ord cap v0 ps v -> (forall p, p ∈ ps -> VHistSpec.phase_fits cap p) ->
  exists l k, VHistSpec.history_spec cap [] 0 ps l k /\ forall progs : list (list (qop T)), (forall p op, p ∈ progs -> op ∈ p -> vector_call op) ->
  forall s ls, reach (qstep (vctl cap)) (as_shared v, q_start progs) (s, ls) ->
  exists c, Z.of_nat (length l) + k + settled progs ls - running false ls <= c <= Z.of_nat (length l) + k + settled progs ls + running true ls /\
    v_size (as_vec s) = Z.max 0 (Z.min (Z.of_nat cap) c) /\ (v_empty (as_vec s) = true <-> c <= 0) /\ (v_full (as_vec s) = true <-> Z.of_nat cap <= c).
Proof. exact @vector_size_now. Qed.
(** ** deque (queue, stack): the same, after any history (C85) *)
Theorem C86_deque_size : forall (T : Type) (HT : EqDecision T) (opt : bool) (ord : nat -> list nat), (forall n, ord n ≡ₚ seq 0 n) ->
  forall cap : nat, 0 < Z.of_nat cap <= INT_MAX -> forall junk (d0 : deq T) (ps : list (@dphase T)) d,
  deq_create junk (Z.of_nat cap) = Ret d0 -> dhistory_run opt ord cap d0 ps d -> (forall p, p ∈ ps -> dphase_fits opt p) ->
  exists l k, dhistory_spec opt cap [] 0 ps l k /\ forall progs : list (list (qop T)), (forall p op, p ∈ progs -> op ∈ p -> op_wf op) ->
  forall s ls, reach (qstep (dctl cap)) (d_as_shared d, q_start progs) (s, ls) ->
  exists c, Z.of_nat (length l) + k + settled progs ls - running false ls <= c <= Z.of_nat (length l) + k + settled progs ls + running true ls /\
    d_size (as_deq s) = Z.max 0 (Z.min (Z.of_nat cap) c) /\ (d_empty (as_deq s) = true <-> c <= 0) /\ (d_full (as_deq s) = true <-> Z.of_nat cap <= c).
Proof. exact @deque_size_now. Qed.
(** ** unordered_map, unordered_set: at every moment of a kernel of inserts, erases and lookups, after any history, size() (one load of the counter) is the number of values before the kernel plus
    the inserts that have returned success minus the erases that have returned 1, up to the inserts and erases that are running; and it is never less than the number of values that are
    stored at the moment, nor more than that and the running calls *)
Theorem C86_unordered_size : forall (K V : Type) trivial kf hash keq ord buckets excess fuel H (u : utab V) lss s1 (progs : list (list (cop K V))) s ls,
  after_any_kernels trivial kf hash keq ord buckets excess fuel H u lss s1 ->
  Conc.reach (kernel_step kf hash keq buckets excess trivial) (s1, c_start progs) (s, ls) ->
  let before := Z.of_nat (length (stored_values s1)) in let now := Z.of_nat (length (stored_values s)) in
  let returned := Z.of_nat (length (inserted_values ls)) - Z.of_nat (length (erased_keys ls)) in
  let inserting := Z.of_nat (length (running_inserts ls)) in let erasing := Z.of_nat (length (running_erases ls)) in
  before + returned - erasing <= c_count s <= before + returned + inserting /\ now <= c_count s <= now + inserting + erasing.
Proof.
  any_hyps. intros HR. destruct (arest_start kf hash keq buckets excess s1 progs R1) as (F & I0). destruct (ainv_reach kf hash keq buckets excess HP _ _ _ _ _ _ _ _ I0 HR) as (F' & P' & I).
  destruct (arest_facts kf hash buckets excess s1 R1) as (L1 & L2 & _). destruct (a_len kf hash keq buckets excess _ _ _ _ _ I) as (L3 & L4 & _).
  cbv zeta. rewrite (stored_values_eq buckets excess s L3 L4), (stored_values_eq buckets excess s1 L1 L2). pose proof (count_now kf hash keq buckets excess _ _ _ _ _ I) as [C1 C2]. lia.
Qed.
Print Assumptions C86_vector_size.
Print Assumptions C86_deque_size.
Print Assumptions C86_unordered_size.

(** capacity 2, two pushes: one has returned, the other has changed the counter and not stored its element yet; size() is 2 *)
Example C86_ex : exists v0 s ls, vec_create 2 = Ret v0 /\
  reach (qstep (vctl 2)) (as_shared v0, q_start [[QPush KPushBack 7%nat]; [QPush KPushBack 8%nat]]) (s, ls) /\
  settled [[QPush KPushBack 7%nat]; [QPush KPushBack 8%nat]] ls = 1 /\ running true ls = 1 /\ running false ls = 0 /\
  v_size (as_vec s) = 2 /\ v_full (as_vec s) = true /\ stored (q_data s) = [7%nat].
Proof.
  eexists _, _, _. split; [vm_compute; reflexivity|]. split; [apply (run_reach _ [0; 0; 0; 0; 0; 0; 0; 0; 1; 1; 1; 1]%nat); vm_compute; reflexivity|].
  repeat (split; [vm_compute; reflexivity|]). vm_compute. reflexivity.
Qed.
