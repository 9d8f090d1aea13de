(** C34, the schedules of the kernel of device_range(): the threads of the kernel run concurrently, access by access.
    [dealt]: the indices are dealt to any number of threads in any way. *)
From Verif Require Import Base Conc SlotModel VectorModel UnorderedModel UnorderedSpec CollectModel CollectSpec UnorderedProofs CollectProofs UnorderedProps.

(** on every reachable container and under every schedule, no access of the kernel is undefined, no thread is ever stuck, two threads never write the same element of
    _range_indices, and when all threads are finished the range lists the positions of the stored values, each once, size() many: the
    positions of the sequential device_range() (UnorderedModel.v) in some order *)
Theorem C34_every_schedule : forall (K V : Type) (kf : V -> K) (hash : K -> Z) (keq : K -> K -> bool) (opt : bool) (ord : nat -> list nat),
  key_equality keq -> hash_respects keq hash -> any_order ord -> forall buckets excess, sizes_ok buckets excess ->
  forall fuel, (2 <= fuel)%nat -> forall u0 u, reachable kf hash keq opt ord fuel buckets excess u0 u ->
  forall progs, dealt (buckets + excess) progs -> forall s ts, Conc.reach collect_step (collect_start u, collect_threads progs) (s, ts) ->
  r_occ s = u_occ u /\ length (r_idx s) = length (u_indices u) /\
  (forall t, t ∈ ts -> t.2 <> CUndefined) /\
  (forall k t, ts !! k = Some t -> t = ([], CTest) \/ exists r, collect_step k s t = Some r) /\
  (forall k k' t t' j, k <> k' -> ts !! k = Some t -> ts !! k' = Some t' -> collect_write t = Some j -> collect_write t' = Some j -> False) /\
  (collected ts -> NoDup (collect_result s) /\ (forall p, p ∈ collect_result s <-> exists v, u_value u p = Ret v) /\
     u_size u = Ret (Z.of_nat (length (collect_result s))) /\
     exists u' positions, u_range ord u = Ret (u', positions) /\ collect_result s ≡ₚ positions).
Proof.
  intros * Hk Hh Ho bc E Hs fuel Hf u0 u Hu progs Hd s ts Hr.
  destruct (occupied_reachable kf hash keq opt ord Hk Hh Ho bc E Hs fuel Hf u0 u Hu) as (Lo & Li & Hp & u' & idx & E1 & P & Esz).
  assert (Hmax : Z.of_nat (bc + E) <= INT_MAX) by (destruct Hs as (_ & _ & H); exact H).
  destruct (cinv_reach (u_occ u) (bc + E) Lo Hmax _ _ Hr [] (cinv_start _ _ Lo _ _ Li Hd)) as [G I]. cbn [fst snd] in I.
  split; [exact (ci_occ _ _ _ _ _ I)|]. split; [rewrite (ci_len _ _ _ _ _ I); lia|]. split; [exact (ci_def _ _ _ _ _ I)|]. split; [intros k t Hkt; eapply not_stuck; eassumption|]. split.
  { intros k k' [is pc] [is' pc'] j N H1 H2 W1 W2. destruct pc as [| |i ji|]; try discriminate. destruct pc' as [| |i' ji'|]; try discriminate.
    injection W1 as ->. injection W2 as ->. exact (N (ci_excl _ _ _ _ _ I _ _ _ _ _ _ _ H1 H2)). }
  intros Hc. pose proof (cinv_end (u_occ u) (bc + E) Lo Hmax s ts G I Hc) as Q. split.
  { rewrite Q. apply NoDup_fmap_2; [intros x y; lia|]. apply NoDup_filter. apply NoDup_seq. }
  split; [intros p; rewrite Q; apply Hp|]. split; [rewrite Q, P; exact Esz|]. exists u', idx. split; [exact E1|]. rewrite Q. exact P.
Qed.
(** every schedule comes to an end: it has at most three steps per index *)
Theorem C34_every_schedule_ends : forall (V : Type) (u : utab V) n progs, dealt n progs -> forall sched c',
  run collect_step sched (collect_start u, collect_threads progs) = Some c' -> (length sched <= 3 * n)%nat.
Proof.
  intros V u n progs Hd sched c' H. apply work_run in H. cbn [snd] in H. rewrite (work_start n progs Hd) in H.
  assert (0 <= sumZ work c'.2) by (apply sumZ_nonneg; intros; apply work_nonneg). lia.
Qed.
Print Assumptions C34_every_schedule.
Print Assumptions C34_every_schedule_ends.
(** two threads; the second takes its ticket for position 5 before the first one does for position 2, and writes after it *)
Definition ex_deal : list (list nat) := [[2; 0; 1]; [3; 5; 4; 6]]%nat.
Example C34_every_schedule_ex : exists u0 u s ts, ex_table = Ret (u0, u) /\
  reachable (fun v => v) ex_hash Z.eqb false (fun n => rev (seq 0 n)) 2 4 3 u0 u /\ dealt (4 + 3) ex_deal /\
  run collect_step [1; 1; 0; 1; 0; 0; 1; 0; 1; 1; 1; 1; 0]%nat (collect_start u, collect_threads ex_deal) = Some (s, ts) /\ collected ts /\ collect_result s = [5; 2; 6].
Proof.
  destruct C34_ex as (u0 & u & u' & E & R & _). exists u0, u. pose proof E as E'. vm_compute in E'. injection E' as <- <-.
  eexists _, _. split; [exact E|]. split; [exact R|]. split.
  { unfold dealt. apply NoDup_Permutation; [|apply NoDup_seq|]; [apply (bool_decide_unpack (NoDup (concat ex_deal))); vm_compute; exact Logic.I|].
    intros x. rewrite elem_of_seq. cbn. rewrite !elem_of_cons, elem_of_nil. lia. }
  split; [vm_compute; reflexivity|]. split; [|vm_compute; reflexivity].
  intros t Ht. repeat (apply elem_of_cons in Ht as [-> |Ht]; [reflexivity|]). inversion Ht.
Qed.
(** device_range() const of the same container called twice at once (both have stored 0, unordered_base_detail.cuh 198, before the first kernel, 200, runs) is not covered: the two kernels share
    _range_indices_end, and the range lists values twice *)
Example C34_two_calls_overlap : exists u0 u s ts, ex_table = Ret (u0, u) /\
  Conc.reach collect_step (collect_start u, collect_threads [seq 0 7; seq 0 7]) (s, ts) /\ collected ts /\ collect_result s = [2; 2; 5; 6; 5; 6].
Proof.
  destruct C34_ex as (u0 & u & u' & E & R & _). exists u0, u. pose proof E as E'. vm_compute in E'. injection E' as <- <-.
  eexists _, _. split; [exact E|]. split; [apply (run_reach _ [0; 0; 0; 0; 0; 1; 1; 1; 1; 1; 0; 0; 0; 0; 0; 0; 0; 0; 1; 1; 1; 1; 1; 1; 1; 1]%nat); vm_compute; reflexivity|].
  split; [|vm_compute; reflexivity].
  intros t Ht. repeat (apply elem_of_cons in Ht as [-> |Ht]; [reflexivity|]). inversion Ht.
Qed.
