(** C80: a stored key that no erase concerns is found, at the same position, whatever else the threads do. *)
From Verif Require Import Base Conc SlotModel SlotSpec VectorModel UnorderedModel UnorderedSpec UnorderedProofs UConcModel UConcSpec UConcProps UEraseModel UEraseSpec UHistSpec UHistProofs UMixProps UMix2Props UOneTop UAnySpec UAnyTop UKeepSpec UKeepProofs UKeepTop.

(** a container [u] that a history of phases [H] produced, in which the key [k] is stored at [p] with value [v]; then kernels [lss] one after the other,
    each with any number of threads that insert, erase and look keys up, whose erases spare [k] (UKeepSpec.v), which left the container in state [s] *)
Definition after_sparing {K V} (trivial : bool) (kf : V -> K) (hash : K -> Z) (keq : K -> K -> bool) (ord : nat -> list nat) (buckets excess fuel : nat)
    (H : list (phase K V)) (u : utab V) (k : K) (p : nat) (v : V) (lss : list (list (cthread K V))) (s : cshared V) : Prop :=
  key_equality keq /\ hash_respects keq hash /\ any_order ord /\ sizes_ok buckets excess /\ (2 <= fuel)%nat /\
  history kf hash keq ord fuel buckets excess H u /\ stored_at kf keq (shared_of u) k p v /\ sparing_kernels kf hash keq buckets excess trivial k p (shared_of u) lss s.
Ltac keep_hyps := intros * (Hk & Hh & Ho & Hs & Hf & HH & Hst & HK); destruct (history_urep _ _ _ _ _ _ Hk Hh Ho Hs _ Hf _ _ HH) as (G0 & st0 & Ru);
  assert (HP : key_equality _ /\ hash_respects _ _ /\ sizes_ok _ _) by (split; [exact Hk|split; [exact Hh|exact Hs]]);
  pose proof (urep_arest _ _ _ _ _ HP _ _ _ Ru) as R0; destruct (keep_start _ _ _ _ _ HP _ _ _ _ _ _ Ru Hst) as (path & HPath & Q0);
  destruct (kernels_kept _ _ _ _ _ HP _ _ _ _ HPath _ _ _ _ Q0 R0 HK) as (Q1 & R1 & Hsees).

(** the key stays where it is, with its value, at every point of the next such kernel *)
Theorem C80_key_stays : forall (K V : Type) trivial kf hash keq ord buckets excess fuel H (u : utab V) k p v lss s1 (progs : list (list (cop K V))) s ls,
  after_sparing trivial kf hash keq ord buckets excess fuel H u k p v lss s1 -> spares hash keq buckets k p progs ->
  Conc.reach (kernel_step kf hash keq buckets excess trivial) (s1, c_start progs) (s, ls) ->
  stored_at kf keq s k p v.
Proof.
  keep_hyps. intros Hsp HR. destruct (kinv_reach kf hash keq buckets excess HP k v p path HPath _ _ _ _ _ (kinv_start kf hash keq buckets excess HP k v p path _ _ Q1 R1 Hsp) HR) as (Q & _).
  split; [exact (q_p _ _ _ _ _ _ _ _ _ _ Q)|]. split; [apply (q_occ _ _ _ _ _ _ _ _ _ _ Q); left; reflexivity|]. apply Hst.
Qed.
(** every lookup of the key that has returned in one of the kernels returned this position, and every insert of an equal key was refused *)
Theorem C80_calls_see_the_key : forall (K V : Type) trivial kf hash keq ord buckets excess fuel H (u : utab V) k p v lss s1 (progs : list (list (cop K V))) s ls,
  after_sparing trivial kf hash keq ord buckets excess fuel H u k p v lss s1 -> spares hash keq buckets k p progs ->
  Conc.reach (kernel_step kf hash keq buckets excess trivial) (s1, c_start progs) (s, ls) ->
  forall ls', ls' ∈ lss ++ [ls] -> sees_key kf keq k p ls'.
Proof.
  keep_hyps. intros Hsp HR ls' Hls'. apply elem_of_app in Hls' as [Hls'|Hls']; [exact (Hsees ls' Hls')|]. apply elem_of_list_singleton in Hls' as ->.
  exact (kinv_sees kf hash keq buckets excess k v p path _ _ (kinv_reach kf hash keq buckets excess HP k v p path HPath _ _ _ _ _ (kinv_start kf hash keq buckets excess HP k v p path _ _ Q1 R1 Hsp) HR)).
Qed.
(** every access of a lookup of the key is inside the arrays and to a living value: it always has a next step *)
Theorem C80_lookup_accesses_defined : forall (K V : Type) trivial kf hash keq ord buckets excess fuel H (u : utab V) k p v lss s1 (progs : list (list (cop K V))) s ls,
  after_sparing trivial kf hash keq ord buckets excess fuel H u k p v lss s1 -> spares hash keq buckets k p progs ->
  Conc.reach (kernel_step kf hash keq buckets excess trivial) (s1, c_start progs) (s, ls) ->
  forall i t k' rest, ls !! i = Some t -> c_prog t = CFind k' :: rest -> keq k' k = true -> kernel_step kf hash keq buckets excess trivial i s t <> None.
Proof.
  keep_hyps. intros Hsp HR i t k' rest Hi Ep Hk'. pose proof (kinv_reach kf hash keq buckets excess HP k v p path HPath _ _ _ _ _ (kinv_start kf hash keq buckets excess HP k v p path _ _ Q1 R1 Hsp) HR) as I.
  exact (kinv_defined kf hash keq buckets excess HP k v p path HPath trivial _ _ _ _ _ _ I Hi Ep Hk').
Qed.
(** it waits for nobody: whatever the other threads do, it has returned when its thread has had four turns per entry, and one *)
Theorem C80_lookup_wait_free : forall (K V : Type) trivial kf hash keq ord buckets excess fuel H (u : utab V) k p v lss s1 (progs : list (list (cop K V))) s ls,
  after_sparing trivial kf hash keq ord buckets excess fuel H u k p v lss s1 -> spares hash keq buckets k p progs ->
  Conc.reach (kernel_step kf hash keq buckets excess trivial) (s1, c_start progs) (s, ls) ->
  forall i t k' rest sched s' ls', ls !! i = Some t -> c_prog t = CFind k' :: rest -> c_pc t = UIdle -> keq k' k = true ->
  Conc.run (kernel_step kf hash keq buckets excess trivial) sched (s, ls) = Some (s', ls') -> (4 * (buckets + excess) + 1 <= turns i sched)%nat ->
  exists t', ls' !! i = Some t' /\ (length (c_log t) < length (c_log t'))%nat.
Proof.
  keep_hyps. intros Hsp HR i t k' rest sched s' ls' Hi Ep Epc Hk' Hrun Hturns. pose proof (kinv_reach kf hash keq buckets excess HP k v p path HPath _ _ _ _ _ (kinv_start kf hash keq buckets excess HP k v p path _ _ Q1 R1 Hsp) HR) as I.
  refine (kinv_finishes kf hash keq buckets excess HP k v p path HPath trivial sched _ _ _ _ _ _ _ _ I Hrun Hi Ep Hk' _). rewrite Epc. cbn [frank]. pose proof (path_len kf hash keq buckets excess HP k v p path HPath _ _ I). lia.
Qed.
Print Assumptions C80_key_stays.
Print Assumptions C80_calls_see_the_key.
Print Assumptions C80_lookup_accesses_defined.
Print Assumptions C80_lookup_wait_free.

(** the list of bucket 0 is 0 -> 5 -> 4 with the keys 1, 2, 3; bucket 1 holds 100.  The key 3 is in an excess entry, and the erases are of keys of bucket 1,
    in a first kernel and in a second one that is running; the key 1 is at the head, and the erases are of other keys of its bucket *)
Definition kpex_progs1 : list (list (cop Z Z)) := [[CFind 3]; [CErase 100]; [CInsert 101; CInsert 3]].
Definition kpex_sched1 : list nat := sched_of [(5, 0); (41, 2); (10, 1); (6, 0)]%nat.
Definition kpex_progs2 : list (list (cop Z Z)) := [[CFind 3]; [CErase 101]; [CInsert 4]].
Definition kpex_sched2 : list nat := sched_of [(7, 0); (20, 1); (25, 2)]%nat.
Definition kpex_progs3 : list (list (cop Z Z)) := [[CFind 1; CInsert 1]; [CErase 2; CErase 3]; [CInsert 4]].
Definition kpex_sched3 : list nat := sched_of [(2, 0); (33, 2); (60, 1); (6, 0); (19, 2)]%nat.
Example C80_ex : exists H u ls1 s1 s2 ls2 s3 ls3,
  after_sparing (V:=Z) false (fun v => v) uex_hash Z.eqb (fun n => seq 0 n) 2 4 2 H u 3 4 3 [ls1] s1 /\
  c_log <$> ls1 = [[(CFind 3, RFound (Some 4%nat))]; [(CErase 100, RErased true)]; [(CInsert 101, RInserted 3); (CInsert 3, RNotInserted)]] /\
  spares uex_hash Z.eqb 2 3 4 kpex_progs2 /\ Conc.reach (kernel_step (fun v => v) uex_hash Z.eqb 2 4 false) (s1, c_start kpex_progs2) (s2, ls2) /\
  c_pc <$> ls2 = [FOff FUser 5; XCnt 3 1; EOff (EIns2 4) 4] /\
  after_sparing (V:=Z) true (fun v => v) uex_hash Z.eqb (fun n => seq 0 n) 2 4 2 H u 1 0 1 [] (shared_of u) /\
  spares uex_hash Z.eqb 2 1 0 kpex_progs3 /\ Conc.reach (kernel_step (fun v => v) uex_hash Z.eqb 2 4 true) (shared_of u, c_start kpex_progs3) (s3, ls3) /\
  c_log <$> ls3 = [[(CFind 1, RFound (Some 0%nat)); (CInsert 1, RNotInserted)]; [(CErase 2, RErased true)]; [(CInsert 4, RInserted 5)]].
Proof.
  assert (Hpre : key_equality Z.eqb /\ hash_respects Z.eqb uex_hash /\ any_order (fun n => seq 0 n) /\ sizes_ok 2 4 /\ (2 <= 2)%nat).
  { unfold key_equality, hash_respects, any_order, sizes_ok, INT_MAX. split; [split; [apply Z.eqb_refl|split; intros *; rewrite !Z.eqb_eq; congruence]|]. split; [intros a b; rewrite Z.eqb_eq; congruence|]. split; [reflexivity|lia]. }
  destruct Hpre as (P1 & P2 & P3 & P4 & P5).
  assert (Hu : exists H u, oex_u = Some u /\ history (V:=Z) (fun v => v) uex_hash Z.eqb (fun n => seq 0 n) 2 2 4 H u).
  { eexists _, _. split; [vm_compute; reflexivity|]. eapply then_phase; [eapply (created _ _ _ _ _ _ _ []); vm_compute; reflexivity|]; eapply (run_calls _ _ _ _ _ _ _ _ [UInsert 1; UInsert 2; UInsert 3; UInsert 100]); [repeat constructor|vm_compute; reflexivity]. }
  destruct Hu as (H & u & Hu & HH). vm_compute in Hu. injection Hu as <-. match type of HH with history _ _ _ _ _ _ _ _ ?x => set (u := x) in * end.
  assert (Hsp : forall (progs : list (list (cop Z Z))) k p, forallb (fun prog => forallb (fun op => match op with CErase k' => negb (bool_decide (bucket_of uex_hash 2 k' = bucket_of uex_hash 2 k)) || (bool_decide (bucket_of uex_hash 2 k = Some p) && negb (k' =? k)) | _ => true end) prog) progs = true -> spares uex_hash Z.eqb 2 k p progs).
  { intros progs k p Hb prog k' H1 H2. rewrite forallb_forall in Hb. specialize (Hb prog (proj1 (elem_of_list_In _ _) H1)). rewrite forallb_forall in Hb. specialize (Hb _ (proj1 (elem_of_list_In _ _) H2)). cbn beta iota in Hb.
    apply orb_prop in Hb as [Hb|Hb]; [left; apply negb_true_iff, bool_decide_eq_false in Hb; exact Hb|right]. apply andb_prop in Hb as [Hb1 Hb2]. apply bool_decide_eq_true in Hb1. apply negb_true_iff in Hb2. auto. }
  assert (V1 : exists s1 ls1 s2 ls2, Conc.reach (kernel_step (fun v => v) uex_hash Z.eqb 2 4 false) (shared_of u, c_start kpex_progs1) (s1, ls1) /\ c_quiescent ls1 /\
    c_log <$> ls1 = [[(CFind 3, RFound (Some 4%nat))]; [(CErase 100, RErased true)]; [(CInsert 101, RInserted 3); (CInsert 3, RNotInserted)]] /\
    Conc.reach (kernel_step (fun v => v) uex_hash Z.eqb 2 4 false) (s1, c_start kpex_progs2) (s2, ls2) /\ c_pc <$> ls2 = [FOff FUser 5; XCnt 3 1; EOff (EIns2 4) 4]).
  { eexists _, _, _, _. split; [apply (run_reach _ kpex_sched1); vm_compute; reflexivity|].
    split; [intros t Ht; repeat (apply elem_of_cons in Ht as [-> |Ht]; [reflexivity|]); inversion Ht|]. split; [vm_compute; reflexivity|].
    split; [apply (run_reach _ kpex_sched2); vm_compute; reflexivity|]. vm_compute; reflexivity. }
  assert (V3 : exists s3 ls3, Conc.reach (kernel_step (fun v => v) uex_hash Z.eqb 2 4 true) (shared_of u, c_start kpex_progs3) (s3, ls3) /\
    c_log <$> ls3 = [[(CFind 1, RFound (Some 0%nat)); (CInsert 1, RNotInserted)]; [(CErase 2, RErased true)]; [(CInsert 4, RInserted 5)]]).
  { eexists _, _. split; [apply (run_reach _ kpex_sched3); vm_compute; reflexivity|]. vm_compute; reflexivity. }
  destruct V1 as (s1 & ls1 & s2 & ls2 & A1 & A2 & A3 & A4 & A5). destruct V3 as (s3 & ls3 & B1 & B2). exists H, u, ls1, s1, s2, ls2, s3, ls3.
  split; [repeat (split; [assumption|]); split; [split; [|split]; vm_compute; reflexivity|]; refine (then_sparing_kernel _ _ _ _ _ false 3 4%nat _ [] _ kpex_progs1 _ _ (no_sparing_kernel _ _ _ _ _ false _ _ _) _ A1 A2); apply Hsp; vm_compute; reflexivity|].
  split; [exact A3|]. split; [apply Hsp; vm_compute; reflexivity|]. split; [exact A4|]. split; [exact A5|].
  split; [repeat (split; [assumption|]); split; [split; [|split]; vm_compute; reflexivity|apply no_sparing_kernel]|]. split; [apply Hsp; vm_compute; reflexivity|]. split; [exact B1|exact B2].
Qed.
