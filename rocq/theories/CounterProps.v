(** Property theorem C76: the 32-bit size counters do not overflow. *)
From Verif Require Import Base Conc SlotModel VectorModel DequeModel UnorderedModel UConcModel UEraseModel CounterModel CounterProofs.

(** C76 (vector): a kernel of at most M threads with capacity + M <= INT_MAX, on a vector whose counter is in [-M, capacity + M] (any state
    in which no call runs and the counter is the size, and every state an earlier such kernel has left).  Every schedule does exactly the
    same with the 32-bit counter as with an unbounded one, for any number of calls, and leaves the counter in that range. *)
Theorem C76_vector_counter : forall (T : Type) (cap : nat) (M : Z) (s : qshared T Z) (ls : list (qthread T)),
  Z.of_nat cap + M <= INT_MAX -> - M <= q_c s <= Z.of_nat cap + M -> quiescent ls -> Z.of_nat (length ls) <= M ->
  forall sched, run (qstep (vctl32 cap)) sched (s, ls) = run (qstep (vctl cap)) sched (s, ls) /\
    forall s' ls', run (qstep (vctl cap)) sched (s, ls) = Some (s', ls') -> - M <= q_c s' <= Z.of_nat cap + M.
Proof. exact @vec_counter. Qed.
Print Assumptions C76_vector_counter.
(** C76 (deque, and so queue and stack) *)
Theorem C76_deque_counter : forall (T : Type) (cap : nat) (M : Z) (s : qshared T dcnt) (ls : list (qthread T)),
  Z.of_nat cap + M <= INT_MAX -> - M <= c_n (q_c s) <= Z.of_nat cap + M -> quiescent ls -> Z.of_nat (length ls) <= M ->
  forall sched, run (qstep (dctl32 cap)) sched (s, ls) = run (qstep (dctl cap)) sched (s, ls) /\
    forall s' ls', run (qstep (dctl cap)) sched (s, ls) = Some (s', ls') -> - M <= c_n (q_c s') <= Z.of_nat cap + M.
Proof. exact @deq_counter. Qed.
Print Assumptions C76_deque_counter.
(** C76 (unordered containers): any programs of insert, erase and find (also mixed ones), any hash and equality, on a container with
    non-negative element count: if count + number of calls <= INT_MAX and excess list + number of threads <= INT_MAX, then every schedule
    does the same with _occupied_count and the excess list's counter in 32 bits; the element count moves by at most the number of calls. *)
Theorem C76_unordered_counters : forall (K V : Type) (kf : V -> K) (hash : K -> Z) (keq : K -> K -> bool) (bc E : nat)
  (s : cshared V) (progs : list (list (cop K V))) (M : Z),
  Z.of_nat (length progs) <= M -> Z.of_nat E + M <= INT_MAX -> - M <= q_c (c_ex s) <= Z.of_nat E + M ->
  0 <= c_count s -> c_count s + Z.of_nat (length (concat progs)) <= INT_MAX ->
  forall sched, run (ustep32 kf hash keq bc E) sched (s, c_start progs) = run (ustep kf hash keq bc E) sched (s, c_start progs) /\
    run (estep32 kf hash keq bc E) sched (s, c_start progs) = run (estep kf hash keq bc E) sched (s, c_start progs) /\
    forall s' ls', run (ustep kf hash keq bc E) sched (s, c_start progs) = Some (s', ls') \/ run (estep kf hash keq bc E) sched (s, c_start progs) = Some (s', ls') ->
      Z.abs (c_count s' - c_count s) <= Z.of_nat (length (concat progs)) /\ - M <= q_c (c_ex s') <= Z.of_nat E + M.
Proof.
  intros K V kf hash keq bc E s progs M H1 H2 H3 H4 H5 sched.
  destruct (u_counter_gen E (ustep kf hash keq bc E) (ustep_counts kf hash keq bc E) s progs M H1 H2 H3 H4 H5 sched) as [A1 A2].
  destruct (u_counter_gen E (estep kf hash keq bc E) (estep_counts kf hash keq bc E) s progs M H1 H2 H3 H4 H5 sched) as [B1 B2].
  split; [exact A1|]. split; [exact B1|]. intros s' ls' [R|R]; [exact (A2 s' ls' R)|exact (B2 s' ls' R)].
Qed.
Print Assumptions C76_unordered_counters.

(** the bound is tight: at capacity INT_MAX, two threads pushing into a vector with one free slot make the 32-bit counter wrap to -2^31, so
    that size() becomes 0 *)
Theorem C76_bound_is_needed : forall (T : Type) (cap : nat) (l : list T) (x y : T), Z.of_nat cap = INT_MAX -> Z.of_nat (length l) = INT_MAX - 1 ->
  exists s ls, run (qstep (vctl32 cap)) [0; 0; 1; 1; 0; 1]%nat (vec_conc_start cap l, q_start [[QPush KPushBack x]; [QPush KPushBack y]]) = Some (s, ls) /\
    q_c s = - 2 ^ 31 /\ clamp_size (Z.of_nat cap) (q_c s) = 0.
Proof.
  intros T cap l x y Hc Hl.
  assert (E0 : clamp_size (Z.of_nat cap) (Z.of_nat (length l)) =? Z.of_nat cap = false) by (rewrite Hc, Hl; reflexivity).
  assert (E1 : vctl32 cap (Z.of_nat (length l)) KPushBack 0 = CGo (Z.of_nat (length l)) 1) by (unfold vctl32; rewrite E0; reflexivity).
  assert (E2 : vctl32 cap (Z.of_nat (length l)) KPushBack 1 = CClaim INT_MAX (Z.to_nat (Z.of_nat (length l)))).
  { unfold vctl32. rewrite Hc, Hl. reflexivity. }
  assert (E3 : vctl32 cap INT_MAX KPushBack 1 = COob (- 2 ^ 31)) by (unfold vctl32; rewrite Hc; reflexivity).
  set (p := Z.to_nat (Z.of_nat (length l))) in *.
  eexists _, _. split.
  - cbn [run q_start fmap list_fmap snd fst lookup list_lookup].
    cbn -[vctl32 Z.of_nat INT_MAX vec_conc_start]. unfold vec_conc_start. cbn [q_c]. rewrite E1. cbn -[vctl32 Z.of_nat INT_MAX p]. rewrite E1. cbn -[vctl32 Z.of_nat INT_MAX p].
    rewrite E2. cbn -[vctl32 Z.of_nat INT_MAX p]. rewrite E3. reflexivity.
  - cbn [with_c q_c]. split; [reflexivity|]. rewrite Hc. reflexivity.
Qed.
Print Assumptions C76_bound_is_needed.
(** three pushes and two pops by two threads on a full vector of capacity 2; the 32-bit machine runs the schedule; one push is refused, the
    counter is 2 in between and 1 in the end *)
Example C76_ex : exists s ls, run (qstep (vctl32 2)) [0; 0; 1; 1; 1; 1; 1; 1; 1; 1; 1; 0; 0; 0; 0; 0; 0; 0; 0; 1; 1; 1; 1; 1; 1; 1; 1; 1]%nat
    (vec_conc_start 2 [1%nat; 2%nat], q_start [[QPush KPushBack 3%nat; QPush KPushBack 4%nat]; [QPop KPopBack; QPop KPopBack]]) = Some (s, ls) /\
  q_c s = 1 /\ map q_log ls = [[Refused; Pushed 4%nat]; [Popped 2%nat; Popped 4%nat]] /\ (-2 <= q_c (vec_conc_start 2 [1%nat; 2%nat]) <= Z.of_nat 2 + 2).
Proof. eexists _, _. split; [vm_compute; reflexivity|]. split; [reflexivity|]. split; [reflexivity|]. cbn. lia. Qed.
Example C76_unordered_ex : exists s ls, run (ustep32 (fun v : Z => v) (fun k => k) Z.eqb 2 1) [0; 0; 0; 0; 0; 0; 0; 0; 0; 0; 0; 0; 0; 0]%nat
    ({| c_values := [None; None; None]; c_off := [0; 0; 0]; c_occ := [false; false; false]; c_locks := [false; false; false]; c_count := 0;
        c_ex := {| q_c := 1; q_data := [Some 2]; q_occ := [true]; q_locks := [false] |} |}, c_start [[CInsert 5]]) = Some (s, ls) /\
  c_count s = 1 /\ map c_prog ls = [[]].
Proof. eexists _, _. split; [vm_compute; reflexivity|]. split; reflexivity. Qed.
