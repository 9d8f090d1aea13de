(** C67, the part that holds: kernels in which at most one thread erases, with any number of threads that insert and look keys up. *)
From Verif Require Import Base Conc SlotModel SlotSpec VectorModel UnorderedModel UnorderedSpec UConcModel UConcSpec UConcProps UEraseModel UEraseSpec UHistSpec UHistProofs UMixProps UMix2Props UOneSpec UOneTop.

(** a container [u] that a history of phases [H] produced, then kernels [lss] one after the other, each with at most one erasing thread and each run
    to a state in which no call is running, which left the container in state [s]; value types with a trivial destructor *)
Definition after_kernels {K V} (kf : V -> K) (hash : K -> Z) (keq : K -> K -> bool) (ord : nat -> list nat) (buckets excess fuel : nat)
    (H : list (phase K V)) (u : utab V) (lss : list (list (cthread K V))) (s : cshared V) : Prop :=
  key_equality keq /\ hash_respects keq hash /\ any_order ord /\ sizes_ok buckets excess /\ (2 <= fuel)%nat /\
  history kf hash keq ord fuel buckets excess H u /\ kernels kf hash keq buckets excess (shared_of u) lss s.
Ltac after_hyps := intros * (Hk & Hh & Ho & Hs & Hf & HH & HK); destruct (history_urep _ _ _ _ _ _ Hk Hh Ho Hs _ Hf _ _ HH) as (G0 & st0 & Ru);
  assert (HP : key_equality _ /\ hash_respects _ _ /\ sizes_ok _ _) by (split; [exact Hk|split; [exact Hh|exact Hs]]);
  pose proof (urep_rest _ _ _ _ _ HP _ _ _ Ru) as R0; destruct (kernels_rest _ _ _ _ _ HP _ _ _ R0 HK) as (R1 & removed & Hrem1 & Hrem2).
(** in the next such kernel, too, every access is inside the arrays and to a constructed value: no call is ever without a next step *)
Theorem C67_one_eraser_accesses_defined_partial : forall (K V : Type) kf hash keq ord buckets excess fuel H (u : utab V) lss s1 ers (progs : list (list (cop K V))) s ls,
  after_kernels kf hash keq ord buckets excess fuel H u lss s1 -> one_erases ers progs ->
  Conc.reach (estep kf hash keq buckets excess) (s1, c_start progs) (s, ls) ->
  forall i t, ls !! i = Some t -> c_prog t <> [] -> estep kf hash keq buckets excess i s t <> None.
Proof.
  after_hyps. intros Hone HR i t Hi Hp. destruct (rest_start kf hash keq buckets excess s1 ers progs R1 Hone) as (C & F & X & I0). destruct (oinv_reach kf hash keq buckets excess HP ers _ _ _ _ _ _ _ _ _ I0 HR) as (C' & F' & X' & R' & I).
  destruct (oinv_step kf hash keq buckets excess HP ers _ _ _ _ _ _ _ _ _ I Hi Hp) as (s' & t' & -> & _). discriminate.
Qed.
(** between the kernels: the values in the container and those that the erases removed are together exactly the initial ones and those whose insert
    reported success; each erase that returned 1 removed one value, with an equal key; size() is the number of values in the container *)
Theorem C67_one_eraser_conserves_partial : forall (K V : Type) kf hash keq ord buckets excess fuel H (u : utab V) (lss : list (list (cthread K V))) s,
  after_kernels kf hash keq ord buckets excess fuel H u lss s ->
  (exists removed, stored_values s ++ removed ≡ₚ stored_values (shared_of u) ++ (lss ≫= inserted_values) /\ Forall2 (fun v k => keq (kf v) k = true) removed (lss ≫= erased_keys)) /\
  c_count s = Z.of_nat (length (stored_values s)).
Proof.
  after_hyps. destruct (rest_facts buckets excess s R1) as (L1 & L2 & Hc). destruct (rest_facts buckets excess _ R0) as (L3 & L4 & _).
  rewrite (stored_values_eq buckets excess s L1 L2), (stored_values_eq buckets excess (shared_of u) L3 L4). split; [exists removed; auto|exact Hc].
Qed.
Print Assumptions C67_one_eraser_accesses_defined_partial.
Print Assumptions C67_one_eraser_conserves_partial.

(** the run of [C67_inserted_key_lost_refuted]: three successful inserts and two successful erases, and 7 is in the list of the wrong bucket.  Nothing is
    lost from the arrays: 1 and 100 stay, with 101, 102 and 7; 2 and 3 were removed.  After it a second such kernel, seen with both calls running *)
Definition k1ex_progs : list (list (cop Z Z)) := [[CInsert 7]; [CErase 3; CErase 2]; [CInsert 101; CInsert 102]].
Definition k1ex_sched : list nat := sched_of [(20, 0); (46, 1); (3, 0); (34, 1); (28, 2); (40, 2); (21, 0)]%nat.
Definition k1ex_progs2 : list (list (cop Z Z)) := [[CErase 101]; [CInsert 103]; [CFind 102]].
Definition k1ex_sched2 : list nat := sched_of [(20, 0); (9, 1); (5, 2)]%nat.
Example C67_one_eraser_ex : exists H u ls1 s1 s ls,
  after_kernels (V:=Z) (fun v => v) uex_hash Z.eqb (fun n => seq 0 n) 2 4 2 H u [ls1] s1 /\
  stored_values (shared_of u) = [1; 100; 3; 2] /\ inserted_values ls1 = [7; 101; 102] /\ erased_keys ls1 = [3; 2] /\ stored_values s1 = [1; 100; 7; 102; 101] /\ c_count s1 = 5 /\
  one_erases 0 k1ex_progs2 /\ Conc.reach (mex_step 4) (s1, c_start k1ex_progs2) (s, ls) /\ Forall (fun t => c_prog t <> [] /\ c_pc t <> UIdle) ls.
Proof.
  assert (Hpre : key_equality Z.eqb /\ hash_respects Z.eqb uex_hash /\ any_order (fun n => seq 0 n) /\ sizes_ok 2 4 /\ (2 <= 2)%nat).
  { unfold key_equality, hash_respects, any_order, sizes_ok, INT_MAX. split; [split; [apply Z.eqb_refl|split; intros *; rewrite !Z.eqb_eq; congruence]|]. split; [intros a b; rewrite Z.eqb_eq; congruence|]. split; [reflexivity|lia]. }
  destruct Hpre as (P1 & P2 & P3 & P4 & P5).
  assert (Hu : exists H u, oex_u = Some u /\ history (V:=Z) (fun v => v) uex_hash Z.eqb (fun n => seq 0 n) 2 2 4 H u).
  { eexists _, _. split; [vm_compute; reflexivity|]. eapply then_phase; [eapply (created _ _ _ _ _ _ _ []); vm_compute; reflexivity|]; eapply (run_calls _ _ _ _ _ _ _ _ [UInsert 1; UInsert 2; UInsert 3; UInsert 100]); [repeat constructor|vm_compute; reflexivity]. }
  destruct Hu as (H & u & Hu & HH). vm_compute in Hu. injection Hu as <-. match type of HH with history _ _ _ _ _ _ _ _ ?x => set (u := x) in * end.
  assert (Hone1 : one_erases 1 k1ex_progs).
  { intros i prog k H1 H2. destruct i as [|[|[|i]]]; cbn in H1; try discriminate; try reflexivity; injection H1 as <-; repeat (apply elem_of_cons in H2 as [H2|H2]; [discriminate|]); inversion H2. }
  assert (Hone2 : one_erases 0 k1ex_progs2).
  { intros i prog k H1 H2. destruct i as [|[|[|i]]]; cbn in H1; try discriminate; try reflexivity; injection H1 as <-; repeat (apply elem_of_cons in H2 as [H2|H2]; [discriminate|]); inversion H2. }
  assert (V1 : exists s1 ls1 s ls, Conc.reach (mex_step 4) (shared_of u, c_start k1ex_progs) (s1, ls1) /\ c_quiescent ls1 /\
    inserted_values ls1 = [7; 101; 102] /\ erased_keys ls1 = [3; 2] /\ stored_values s1 = [1; 100; 7; 102; 101] /\ c_count s1 = 5 /\
    Conc.reach (mex_step 4) (s1, c_start k1ex_progs2) (s, ls) /\ Forall (fun t => c_prog t <> [] /\ c_pc t <> UIdle) ls).
  { eexists _, _, _, _. split; [apply (run_reach _ k1ex_sched); vm_compute; reflexivity|].
    split; [intros t Ht; repeat (apply elem_of_cons in Ht as [-> |Ht]; [split; reflexivity|]); inversion Ht|].
    split; [vm_compute; reflexivity|]. split; [vm_compute; reflexivity|]. split; [vm_compute; reflexivity|]. split; [vm_compute; reflexivity|].
    split; [apply (run_reach _ k1ex_sched2); vm_compute; reflexivity|]. repeat constructor; discriminate. }
  destruct V1 as (s1 & ls1 & s & ls & A1 & A2 & A3 & A4 & A5 & A6 & A7 & A8). exists H, u, ls1, s1, s, ls.
  split; [repeat (split; [assumption|]); refine (then_kernel _ _ _ _ _ _ [] _ 1 _ _ _ (no_kernel _ _ _ _ _ _) Hone1 A1 A2)|].
  split; [vm_compute; reflexivity|]. repeat (split; [assumption|]). exact A8.
Qed.
