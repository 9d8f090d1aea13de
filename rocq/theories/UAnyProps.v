(** C79: nothing is lost from the arrays in any mixture of inserts, erases and lookups. *)
From Verif Require Import Base Conc SlotModel SlotSpec VectorModel UnorderedModel UnorderedSpec UConcModel UConcSpec UConcProps UEraseModel UEraseSpec UHistSpec UHistProofs UMixProps UMix2Props UOneSpec UOneTop UAnyDefs UAnySpec UAnyTop.

(** a container [u] that a history of phases [H] produced, then kernels [lss] one after the other, each with any number of threads that insert, erase and
    look keys up, each run to a state in which no call is running, which left the container in state [s] *)
Definition after_any_kernels {K V} (trivial : bool) (kf : V -> K) (hash : K -> Z) (keq : K -> K -> bool) (ord : nat -> list nat) (buckets excess fuel : nat)
    (H : list (phase K V)) (u : utab V) (lss : list (list (cthread K V))) (s : cshared V) : Prop :=
  key_equality keq /\ hash_respects keq hash /\ any_order ord /\ sizes_ok buckets excess /\ (2 <= fuel)%nat /\
  history kf hash keq ord fuel buckets excess H u /\ any_kernels kf hash keq buckets excess trivial (shared_of u) lss s.
Ltac any_hyps := intros * (Hk & Hh & Ho & Hs & Hf & HH & HK); destruct (history_urep _ _ _ _ _ _ Hk Hh Ho Hs _ Hf _ _ HH) as (G0 & st0 & Ru);
  assert (HP : key_equality _ /\ hash_respects _ _ /\ sizes_ok _ _) by (split; [exact Hk|split; [exact Hh|exact Hs]]);
  pose proof (urep_arest _ _ _ _ _ HP _ _ _ Ru) as R0; destruct (any_kernels_rest _ _ _ _ _ HP _ _ _ _ R0 HK) as (R1 & removed & Hrem1 & Hrem2).
(** between the kernels: the values in the container and those that the erases removed are together exactly the initial ones and those whose insert
    reported success; each erase that returned 1 removed one value, with an equal key; size() is the number of values in the container *)
Theorem C79_mixed_kernels_conserve : forall (K V : Type) trivial kf hash keq ord buckets excess fuel H (u : utab V) (lss : list (list (cthread K V))) s,
  after_any_kernels trivial kf hash keq ord buckets excess fuel H u lss s ->
  (exists removed, stored_values s ++ removed ≡ₚ stored_values (shared_of u) ++ (lss ≫= inserted_values) /\ Forall2 (fun v k => keq (kf v) k = true) removed (lss ≫= erased_keys)) /\
  c_count s = Z.of_nat (length (stored_values s)).
Proof.
  any_hyps. destruct (arest_facts kf hash buckets excess s R1) as (L1 & L2 & Hc). destruct (arest_facts kf hash buckets excess _ R0) as (L3 & L4 & _).
  rewrite (stored_values_eq buckets excess s L1 L2), (stored_values_eq buckets excess (shared_of u) L3 L4). split; [exists removed; auto|exact Hc].
Qed.
(** at every point of the next kernel: the same, where of the running inserts some have already stored their value and of the running erases some have
    already removed one *)
Theorem C79_conserved_at_every_point : forall (K V : Type) trivial kf hash keq ord buckets excess fuel H (u : utab V) lss s1 (progs : list (list (cop K V))) s ls,
  after_any_kernels trivial kf hash keq ord buckets excess fuel H u lss s1 ->
  Conc.reach (kernel_step kf hash keq buckets excess trivial) (s1, c_start progs) (s, ls) ->
  exists removed stored_now removed_now,
    stored_values s ++ removed ≡ₚ stored_values s1 ++ inserted_values ls ++ stored_now /\ stored_now ⊆+ running_inserts ls /\
    Forall2 (fun v k => keq (kf v) k = true) removed (erased_keys ls ++ removed_now) /\ removed_now ⊆+ running_erases ls.
Proof.
  any_hyps. intros HR. destruct (arest_start kf hash keq buckets excess s1 progs R1) as (F & I0). destruct (ainv_reach kf hash keq buckets excess HP _ _ _ _ _ _ _ _ I0 HR) as (F' & P' & I).
  destruct (arest_facts kf hash buckets excess s1 R1) as (L1 & L2 & _). destruct (a_len kf hash keq buckets excess _ _ _ _ _ I) as (L3 & L4 & _).
  destruct (ainv_conserves kf hash keq buckets excess _ _ _ _ _ I) as (rem & vs & ks & A1 & A2 & A3 & A4 & _). exists rem, vs, ks.
  rewrite (stored_values_eq buckets excess s L3 L4), (stored_values_eq buckets excess s1 L1 L2). auto.
Qed.
(** at every point of the next kernel size() is in its range: the postcondition 0 <= result <= total_count() of the code *)
Theorem C79_size_in_range : forall (K V : Type) trivial kf hash keq ord buckets excess fuel H (u : utab V) lss s1 (progs : list (list (cop K V))) s ls,
  after_any_kernels trivial kf hash keq ord buckets excess fuel H u lss s1 ->
  Conc.reach (kernel_step kf hash keq buckets excess trivial) (s1, c_start progs) (s, ls) ->
  0 <= c_count s <= Z.of_nat (buckets + excess).
Proof.
  any_hyps. intros HR. destruct (arest_start kf hash keq buckets excess s1 progs R1) as (F & I0). destruct (ainv_reach kf hash keq buckets excess HP _ _ _ _ _ _ _ _ I0 HR) as (F' & P' & I).
  exact (ainv_count kf hash keq buckets excess HP _ _ _ _ _ I).
Qed.
Print Assumptions C79_mixed_kernels_conserve.
Print Assumptions C79_conserved_at_every_point.
Print Assumptions C79_size_in_range.

(** the run of [C67_access_out_of_bounds_refuted]: two threads erase, one inserts, and after it the list of bucket 1 leads out of the arrays.  Nothing is
    lost: 2, 3 and 4 were removed, 101 and 102 added.  Then a second kernel, in which an insert has stored 6 and an erase removed 101, and neither has returned *)
Definition aex_u : option (utab Z) := match uex_new 5 with Ret u0 => match uex_run u0 [UInsert 100; UInsert 201; UInsert 202; UInsert 203; UInsert 204; UErase 203; UErase 204; UErase 201; UErase 202; UInsert 1; UInsert 2; UInsert 3; UInsert 4; UInsert 5] with Ret (u, _) => Some u | _ => None end | _ => None end.
Definition aex_progs : list (list (cop Z Z)) := [[CErase 4]; [CErase 3; CErase 2]; [CInsert 101; CInsert 102]].
Definition aex_sched : list nat := sched_of [(21, 0); (48, 1); (14, 0); (36, 1); (28, 2); (40, 2); (20, 0)]%nat.
Definition aex_progs2 : list (list (cop Z Z)) := [[CErase 1; CFind 5]; [CInsert 6]; [CErase 101]].
Definition aex_sched2 : list nat := sched_of [(13, 0); (27, 1); (24, 2)]%nat.
Example C79_ex : exists H u ls1 s1 s ls,
  after_any_kernels (V:=Z) true (fun v => v) uex_hash Z.eqb (fun n => seq 0 n) 2 5 2 H u [ls1] s1 /\
  stored_values (shared_of u) = [1; 100; 4; 5; 2; 3] /\ inserted_values ls1 = [101; 102] /\ erased_keys ls1 = [4; 3; 2] /\ stored_values s1 = [1; 100; 5; 101; 102] /\ c_count s1 = 5 /\
  Conc.reach (kernel_step (fun v => v) uex_hash Z.eqb 2 5 true) (s1, c_start aex_progs2) (s, ls) /\
  stored_values s = [6; 100; 5; 102] /\ inserted_values ls = [] /\ running_inserts ls = [6] /\ erased_keys ls = [1] /\ running_erases ls = [101].
Proof.
  assert (Hpre : key_equality Z.eqb /\ hash_respects Z.eqb uex_hash /\ any_order (fun n => seq 0 n) /\ sizes_ok 2 5 /\ (2 <= 2)%nat).
  { unfold key_equality, hash_respects, any_order, sizes_ok, INT_MAX. split; [split; [apply Z.eqb_refl|split; intros *; rewrite !Z.eqb_eq; congruence]|]. split; [intros a b; rewrite Z.eqb_eq; congruence|]. split; [reflexivity|lia]. }
  destruct Hpre as (P1 & P2 & P3 & P4 & P5).
  assert (Hu : exists H u, aex_u = Some u /\ history (V:=Z) (fun v => v) uex_hash Z.eqb (fun n => seq 0 n) 2 2 5 H u).
  { eexists _, _. split; [vm_compute; reflexivity|]. eapply then_phase; [eapply (created _ _ _ _ _ _ _ []); vm_compute; reflexivity|]; eapply (run_calls _ _ _ _ _ _ _ _ [UInsert 100; UInsert 201; UInsert 202; UInsert 203; UInsert 204; UErase 203; UErase 204; UErase 201; UErase 202; UInsert 1; UInsert 2; UInsert 3; UInsert 4; UInsert 5]); [repeat constructor|vm_compute; reflexivity]. }
  destruct Hu as (H & u & Hu & HH). vm_compute in Hu. injection Hu as <-. match type of HH with history _ _ _ _ _ _ _ _ ?x => set (u := x) in * end.
  assert (V1 : exists s1 ls1 s ls, Conc.reach (mex_step 5) (shared_of u, c_start aex_progs) (s1, ls1) /\ c_quiescent ls1 /\
    inserted_values ls1 = [101; 102] /\ erased_keys ls1 = [4; 3; 2] /\ stored_values s1 = [1; 100; 5; 101; 102] /\ c_count s1 = 5 /\
    Conc.reach (mex_step 5) (s1, c_start aex_progs2) (s, ls) /\ stored_values s = [6; 100; 5; 102] /\ inserted_values ls = [] /\ running_inserts ls = [6] /\ erased_keys ls = [1] /\ running_erases ls = [101]).
  { eexists _, _, _, _. split; [apply (run_reach _ aex_sched); vm_compute; reflexivity|].
    split; [intros t Ht; repeat (apply elem_of_cons in Ht as [-> |Ht]; [reflexivity|]); inversion Ht|].
    split; [vm_compute; reflexivity|]. split; [vm_compute; reflexivity|]. split; [vm_compute; reflexivity|]. split; [vm_compute; reflexivity|].
    split; [apply (run_reach _ aex_sched2); vm_compute; reflexivity|]. repeat split; vm_compute; reflexivity. }
  destruct V1 as (s1 & ls1 & s & ls & A1 & A2 & A3 & A4 & A5 & A6 & A7 & A8). exists H, u, ls1, s1, s, ls.
  split; [repeat (split; [assumption|]); refine (then_any_kernel _ _ _ _ _ true _ [] _ aex_progs _ _ (no_any_kernel _ _ _ _ _ true _) A1 A2)|].
  split; [vm_compute; reflexivity|]. repeat (split; [assumption|]). exact A8.
Qed.
