(** C88: loop_free(), the part of valid() of the unordered containers that walks the linked lists; and C33 for its kernel. *)
From Verif Require Import Base Conc SlotModel VectorModel UnorderedModel UnorderedSpec CollectSpec LoopModel LoopSpec LoopProofs UnorderedProps.

(** whatever the offsets are, as long as they link entries of the container (offset_range_valid is evaluated first), and under every schedule of the
    kernel: no access is undefined, no thread is stuck, and when all threads are finished the answer is true exactly if the lists of all buckets
    end and no entry is in two of them *)
Theorem C88_exact : forall (off : list Z) buckets progs, links_inside off -> (buckets <= length off)%nat -> dealt buckets progs ->
  forall flags ts, Conc.reach (visit_step off) (visit_start (length off), visit_threads progs) (flags, ts) ->
  (forall t, t ∈ ts -> t.2 <> VUndefined) /\
  (forall k t, ts !! k = Some t -> t = ([], VHead) \/ exists r, visit_step off k flags t = Some r) /\
  (visited ts -> visit_result flags = true <-> lists_separate off buckets).
Proof.
  intros off bc progs Hin Hbc Hd flags ts Hr.
  destruct (linv_reach off (length off) bc eq_refl Hin Hbc _ _ Hr _ (linv_start off (length off) bc eq_refl Hin Hbc progs Hd)) as [G I]. cbn [fst snd] in I. split.
  - intros t [k Hk]%elem_of_list_lookup E. pose proof (li_pc _ _ _ _ _ _ I _ _ Hk) as P. rewrite E in P. exact P.
  - split; [intros k t Hk; eapply visit_not_stuck; eassumption|]. intros Hv. eapply linv_end; eauto.
Qed.
(** the kernel comes to an end, on circles too: every schedule has at most 3 steps per entry and 4 per bucket *)
Theorem C88_ends : forall (off : list Z) n buckets progs, dealt buckets progs -> forall sched c',
  run (visit_step off) sched (visit_start n, visit_threads progs) = Some c' -> (length sched <= 3 * n + 4 * buckets)%nat.
Proof.
  intros off n bc progs Hd sched c' H. apply total_run in H; [|intros p m Hp; cbn in Hp; apply lookup_replicate in Hp; destruct Hp as [-> _]; lia].
  cbn [fst snd] in H. rewrite (total_start n bc progs Hd) in H. pose proof (total_nonneg c'.1 c'.2). lia.
Qed.
(** if the lists are separate, two threads never access the same element of the flags *)
Theorem C88_no_race_partial : forall (off : list Z) buckets progs, links_inside off -> (buckets <= length off)%nat -> dealt buckets progs -> lists_separate off buckets ->
  forall flags ts, Conc.reach (visit_step off) (visit_start (length off), visit_threads progs) (flags, ts) ->
  forall k k' t t' p b b', k <> k' -> ts !! k = Some t -> ts !! k' = Some t' -> flag_access t = Some (p, b) -> flag_access t' = Some (p, b') -> False.
Proof.
  intros off bc progs Hin Hbc Hd Hsep flags ts Hr k k' t t' p b b' N Hk Hk' Ha Ha'.
  destruct (linv_reach off (length off) bc eq_refl Hin Hbc _ _ Hr _ (linv_start off (length off) bc eq_refl Hin Hbc progs Hd)) as [G I]. cbn [fst snd] in I.
  exact (no_common_access off (length off) bc eq_refl Hbc flags ts G k k' t t' p b b' I Hsep N Hk Hk' Ha Ha').
Qed.
(** refuted: the check reads the flag without an atomic (unordered_base_detail.cuh 282), so on the containers that loop_free is there to find, those with
    an entry in two lists, the kernel has a data race: one thread is about to read a flag that another one is about to add to *)
Theorem C88_race_refuted : exists (off : list Z) buckets progs flags ts, links_inside off /\ (buckets <= length off)%nat /\ dealt buckets progs /\
  Conc.reach (visit_step off) (visit_start (length off), visit_threads progs) (flags, ts) /\
  exists t t' p, ts !! 0%nat = Some t /\ ts !! 1%nat = Some t' /\ flag_access t = Some (p, true) /\ flag_access t' = Some (p, false).
Proof.
  exists [2; 1; 0], 2%nat, [[0]; [1]]%nat. eexists _, _. split.
  { intros p o H. do 3 (destruct p as [|p]; [injection H as <-; cbn; lia|]). discriminate. }
  split; [cbn; lia|]. split; [unfold dealt; reflexivity|]. split; [apply (run_reach _ [0; 0; 0; 1; 1]%nat); vm_compute; reflexivity|].
  eexists _, _, 2%nat. repeat split.
Qed.
(** C33: on every reachable container and under every schedule, loop_free's kernel is free of races and its answer is true *)
Theorem C33_loop_free_every_schedule : forall (K V : Type) (kf : V -> K) (hash : K -> Z) (keq : K -> K -> bool) (opt : bool) (ord : nat -> list nat),
  key_equality keq -> hash_respects keq hash -> any_order ord -> forall buckets excess, sizes_ok buckets excess ->
  forall fuel, (2 <= fuel)%nat -> forall u0 u, reachable kf hash keq opt ord fuel buckets excess u0 u ->
  forall progs, dealt buckets progs ->
  forall flags ts, Conc.reach (visit_step (u_off u)) (visit_start (buckets + excess), visit_threads progs) (flags, ts) ->
  (forall t, t ∈ ts -> t.2 <> VUndefined) /\
  (forall k k' t t' p b b', k <> k' -> ts !! k = Some t -> ts !! k' = Some t' -> flag_access t = Some (p, b) -> flag_access t' = Some (p, b') -> False) /\
  (visited ts -> visit_result flags = true).
Proof.
  intros * Hk Hh Ho bc E Hs fuel Hf u0 u Hu progs Hd flags ts Hr.
  destruct (lists_reachable kf hash keq opt ord Hk Hh Ho bc E Hs fuel Hf u0 u Hu) as (L & Hin & Hsep). rewrite <- L in Hr.
  destruct (C88_exact (u_off u) bc progs Hin ltac:(lia) Hd flags ts Hr) as (A & _ & B). split; [exact A|].
  split; [exact (C88_no_race_partial (u_off u) bc progs Hin ltac:(lia) Hd Hsep flags ts Hr)|]. intros Hv. apply B; assumption.
Qed.
Print Assumptions C88_exact.
Print Assumptions C88_ends.
Print Assumptions C88_no_race_partial.
Print Assumptions C88_race_refuted.
Print Assumptions C33_loop_free_every_schedule.
(** a circle (0 -> 1 -> 0) and a list 2 -> 0 that runs into it: both threads come to an end, the answer is false *)
Example C88_ex : exists flags ts, links_inside [1; -1; -2] /\ dealt 3 [[0; 1]; [2]]%nat /\
  Conc.reach (visit_step [1; -1; -2]) (visit_start 3, visit_threads [[0; 1]; [2]]%nat) (flags, ts) /\ visited ts /\ visit_result flags = false.
Proof.
  eexists _, _. split; [intros p o H; do 3 (destruct p as [|p]; [injection H as <-; cbn; lia|]); discriminate|]. split; [unfold dealt; reflexivity|].
  split; [apply (run_reach _ [1; 0; 0; 0; 0; 1; 0; 0; 0; 1; 1; 0; 0; 0; 0]%nat); vm_compute; reflexivity|]. split; [|vm_compute; reflexivity].
  intros t Ht. repeat (apply elem_of_cons in Ht as [-> |Ht]; [reflexivity|]). inversion Ht.
Qed.
(** the reachable container of C34_ex: two chains in use *)
Example C33_loop_free_ex : exists u0 u flags ts, ex_table = Ret (u0, u) /\
  reachable (fun v => v) ex_hash Z.eqb false (fun n => rev (seq 0 n)) 2 4 3 u0 u /\ dealt 4 [[0; 2]; [3; 1]]%nat /\
  run (visit_step (u_off u)) [0; 1; 0; 1; 0; 1; 0; 1; 0; 0; 0; 0; 0; 0]%nat (visit_start 7, visit_threads [[0; 2]; [3; 1]]%nat) = Some (flags, ts) /\ visited ts /\ visit_result flags = true.
Proof.
  destruct C34_ex as (u0 & u & u' & E & R & _). exists u0, u. pose proof E as E'. vm_compute in E'. injection E' as <- <-.
  eexists _, _. split; [exact E|]. split; [exact R|]. split.
  { unfold dealt. apply NoDup_Permutation; [|apply NoDup_seq|]; [apply (bool_decide_unpack (NoDup (concat [[0; 2]; [3; 1]]%nat))); vm_compute; exact Logic.I|].
    intros x. rewrite elem_of_seq. cbn. rewrite !elem_of_cons, elem_of_nil. lia. }
  split; [vm_compute; reflexivity|]. split; [|vm_compute; reflexivity].
  intros t Ht. repeat (apply elem_of_cons in Ht as [-> |Ht]; [reflexivity|]). inversion Ht.
Qed.
