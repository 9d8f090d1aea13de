(** C62, C64: concurrent erases and lookups (no inserts) on unordered_map / unordered_set. *)
From Verif Require Import Base Conc SlotModel SlotSpec VectorModel UnorderedModel UnorderedSpec UnorderedProofs UConcModel UConcSpec UConcProps UEraseModel UEraseSpec UHistSpec UEraseFinal UEraseTop UHistProofs.

(** ** C62: erases and lookups by any number of threads, started on any container [u] that a history of phases [H] (UHistSpec.v) produced, in
    any interleaving [reach] of their accesses; value types with a trivial destructor.  [present s k] (UEraseSpec.v): a lookup that ran alone
    from state [s] would find the key [k]. *)
Definition erase_find_run {K V} (kf : V -> K) (hash : K -> Z) (keq : K -> K -> bool) (ord : nat -> list nat) (buckets excess fuel : nat)
    (H : list (phase K V)) (u : utab V) (progs : list (list (cop K V))) (s : cshared V) (ls : list (cthread K V)) : Prop :=
  key_equality keq /\ hash_respects keq hash /\ any_order ord /\ sizes_ok buckets excess /\ (2 <= fuel)%nat /\
  history kf hash keq ord fuel buckets excess H u /\ erases_and_lookups progs /\
  Conc.reach (estep kf hash keq buckets excess) (shared_of u, c_start progs) (s, ls).
Ltac run_hyps := intros * (Hk & Hh & Ho & Hs & Hf & HH & Hp & R); apply (history_urep _ _ _ _ _ _ Hk Hh Ho Hs _ Hf) in HH.

(** before the run the keys present are those of the content *)
Theorem C62_present_at_start : forall (K V : Type) kf hash keq ord buckets excess fuel H (u : utab V) (progs : list (list (cop K V))) s ls,
  erase_find_run kf hash keq ord buckets excess fuel H u progs s ls ->
  forall M0 k, content kf keq (shared_of u) M0 -> present kf hash keq buckets (shared_of u) k <-> holds kf keq M0 k.
Proof. run_hyps. intros. eapply start_present; eassumption. Qed.
(** a key is present in one entry at most, and once it is not there any more it does not come back *)
Theorem C62_presence_only_ends : forall (K V : Type) kf hash keq ord buckets excess fuel H (u : utab V) (progs : list (list (cop K V))) s ls,
  erase_find_run kf hash keq ord buckets excess fuel H u progs s ls ->
  (forall k p q, present_at kf hash keq buckets s k p -> present_at kf hash keq buckets s k q -> p = q) /\
  forall s' ls' k p, Conc.reach (estep kf hash keq buckets excess) (s, ls) (s', ls') -> present_at kf hash keq buckets s' k p -> present_at kf hash keq buckets s k p.
Proof.
  run_hyps. split; [intros *; eapply etop_one; eassumption|]. intros s' ls' k p R2 H2.
  exact (etop_mono kf hash keq ord buckets excess Hk Hh Ho Hs fuel Hf u HH progs Hp (s, ls) (s', ls') k p R R2 H2).
Qed.
(** its presence ends in a step of a running erase of an equal key only; without such an erase in the programs it stays *)
Theorem C62_presence_ends_by_erase : forall (K V : Type) kf hash keq ord buckets excess fuel H (u : utab V) (progs : list (list (cop K V))) s ls,
  erase_find_run kf hash keq ord buckets excess fuel H u progs s ls ->
  (forall i t s' t' k, ls !! i = Some t -> estep kf hash keq buckets excess i s t = Some (s', t') -> present kf hash keq buckets s k -> ~ present kf hash keq buckets s' k ->
    c_pc t <> UIdle /\ exists k' rest, c_prog t = CErase k' :: rest /\ keq k' k = true) /\
  (forall k, present kf hash keq buckets (shared_of u) k -> (forall prog k', prog ∈ progs -> CErase k' ∈ prog -> keq k' k = false) -> present kf hash keq buckets s k).
Proof. run_hyps. split; intros; [eapply etop_falls; eassumption|eapply etop_stays; eassumption]. Qed.
(** a call that found the key found it in the state in which it started: [starting c i op l1] says that thread [i] is about to start [op] *)
Theorem C62_found_was_present : forall (K V : Type) kf hash keq ord buckets excess fuel H (u : utab V) (progs : list (list (cop K V))) s ls,
  erase_find_run kf hash keq ord buckets excess fuel H u progs s ls ->
  forall i t l1 l2 op r, ls !! i = Some t -> c_log t = l1 ++ (op, r) :: l2 ->
  exists s1 ls1, Conc.reach (estep kf hash keq buckets excess) (shared_of u, c_start progs) (s1, ls1) /\ Conc.reach (estep kf hash keq buckets excess) (s1, ls1) (s, ls) /\ starting (s1, ls1) i op l1 /\
    (forall k p, op = CFind k -> r = RFound (Some p) -> present_at kf hash keq buckets s1 k p) /\
    (forall k, op = CErase k -> r = RErased true -> present kf hash keq buckets s1 k).
Proof.
  run_hyps. intros i t l1 l2 op r Hi Hl. destruct (etop_told kf hash keq ord buckets excess Hk Hh Ho Hs fuel Hf u HH progs Hp s ls i t l1 op r l2 R Hi Hl) as (s1 & ls1 & R1 & R2 & St & Ht).
  exists s1, ls1. split; [exact R1|]. split; [exact R2|]. split; [exact St|]. split; [intros k p -> ->; exact Ht|intros k -> ->; exact Ht].
Qed.
(** after a find returned end(), or an erase returned 0 or 1, the key is not there *)
Theorem C62_gone_after : forall (K V : Type) kf hash keq ord buckets excess fuel H (u : utab V) (progs : list (list (cop K V))) s ls,
  erase_find_run kf hash keq ord buckets excess fuel H u progs s ls ->
  forall k, result ls (CFind k) (RFound None) \/ result ls (CErase k) (RErased false) \/ result ls (CErase k) (RErased true) -> ~ present kf hash keq buckets s k.
Proof. run_hyps. intros. eapply etop_gone; eassumption. Qed.
(** at most one erase per key returns 1, and only for a stored key *)
Theorem C62_one_success_per_key : forall (K V : Type) kf hash keq ord buckets excess fuel H (u : utab V) (progs : list (list (cop K V))) s ls,
  erase_find_run kf hash keq ord buckets excess fuel H u progs s ls ->
  forall M0 k, content kf keq (shared_of u) M0 -> 0 <= erased_times keq k ls <= 1 /\ (erased_times keq k ls = 1 -> holds kf keq M0 k).
Proof.
  run_hyps. intros M0 k HM. destruct (etop_once kf hash keq ord buckets excess Hk Hh Ho Hs fuel Hf u HH progs Hp s ls k R) as [H1 H2]. split; [exact H1|]. intros H3.
  eapply start_present; [exact Hk|exact Hh|exact Ho|exact Hs|exact Hf|exact HH|exact Hp|exact HM|auto].
Qed.
(** every lookup of a stored key that no thread erases finds its entry *)
Theorem C62_unerased_key_is_found : forall (K V : Type) kf hash keq ord buckets excess fuel H (u : utab V) (progs : list (list (cop K V))) s ls,
  erase_find_run kf hash keq ord buckets excess fuel H u progs s ls ->
  forall k, present kf hash keq buckets (shared_of u) k -> (forall prog k', prog ∈ progs -> CErase k' ∈ prog -> keq k' k = false) ->
  forall o, result ls (CFind k) (RFound o) -> exists p, o = Some p /\ present_at kf hash keq buckets s k p.
Proof.
  run_hyps. intros k H0 Hn o Hr. destruct (etop_stays kf hash keq ord buckets excess Hk Hh Ho Hs fuel Hf u HH progs Hp s ls k R H0 Hn) as [q Hq]. destruct o as [p|].
  - exists p. split; [reflexivity|]. destruct (result_log ls _ _ Hr) as (i & t & l1 & l2 & Hi & Hl).
    destruct (etop_told kf hash keq ord buckets excess Hk Hh Ho Hs fuel Hf u HH progs Hp s ls i t l1 _ _ l2 R Hi Hl) as (s1 & ls1 & R1 & R2 & _ & Ht).
    rewrite (etop_one kf hash keq ord buckets excess Hk Hh Ho Hs fuel Hf u HH progs Hp s1 ls1 k p q R1 Ht (etop_mono kf hash keq ord buckets excess Hk Hh Ho Hs fuel Hf u HH progs Hp (s1, ls1) (s, ls) k q R1 R2 Hq)). exact Hq.
  - destruct (etop_gone kf hash keq ord buckets excess Hk Hh Ho Hs fuel Hf u HH progs Hp s ls k R (or_introl Hr)). exists q. exact Hq.
Qed.
(** the values do not move or change *)
Theorem C62_entries_unchanged : forall (K V : Type) kf hash keq ord buckets excess fuel H (u : utab V) (progs : list (list (cop K V))) s ls,
  erase_find_run kf hash keq ord buckets excess fuel H u progs s ls ->
  forall p v, entry s p v -> entry (shared_of u) p v.
Proof. run_hyps. intros. eapply etop_entry; eassumption. Qed.
(** every access is inside the arrays and to a constructed value: no call is ever without a next step *)
Theorem C62_accesses_defined : forall (K V : Type) kf hash keq ord buckets excess fuel H (u : utab V) (progs : list (list (cop K V))) s ls,
  erase_find_run kf hash keq ord buckets excess fuel H u progs s ls ->
  forall i t, ls !! i = Some t -> c_prog t <> [] -> estep kf hash keq buckets excess i s t <> None.
Proof. run_hyps. intros. eapply etop_progress; eassumption. Qed.
(** whenever no call is running: the content is the old content without the keys whose erase returned 1, size() is its size, the keys present
    are its keys, and valid() returns true *)
Theorem C62_at_rest : forall (K V : Type) kf hash keq ord buckets excess fuel H (u : utab V) (progs : list (list (cop K V))) s ls,
  erase_find_run kf hash keq ord buckets excess fuel H u progs s ls -> c_quiescent ls ->
  forall M0, content kf keq (shared_of u) M0 ->
  content kf keq s (not_erased kf keq ls M0) /\ c_count s = Z.of_nat (length (not_erased kf keq ls M0)) /\
  (forall k, present kf hash keq buckets s k <-> holds kf keq (not_erased kf keq ls M0) k) /\
  u_valid kf hash keq ord (utab_of buckets (u_indices u) (ended s)) = Ret true.
Proof.
  run_hyps. intros Hq M0 HM. destruct (etop_content kf hash keq ord buckets excess Hk Hh Ho Hs fuel Hf u HH progs Hp s ls M0 R Hq HM) as [HC Hn].
  split; [exact HC|]. split; [exact Hn|]. split.
  - intros k. split.
    + intros (p & b & v & _ & _ & He & Hkv). exists v. split; [apply HC; eauto|exact Hkv].
    + intros (v & Hv & Hkv). apply HC in Hv as [p He]. exists p. eapply etop_rest_present; eassumption.
  - destruct (etop_rep kf hash keq ord buckets excess Hk Hh Ho Hs fuel Hf u HH progs Hp s ls R Hq) as (G & st & R').
    destruct Hk as (kr & ks & kt), Hs as (Hbc & HE & Hmax). exact (valid_rep kf hash keq true ord Ho kr ks kt Hh buckets excess Hbc HE Hmax _ _ _ R').
Qed.
Print Assumptions C62_present_at_start.
Print Assumptions C62_presence_only_ends.
Print Assumptions C62_presence_ends_by_erase.
Print Assumptions C62_found_was_present.
Print Assumptions C62_gone_after.
Print Assumptions C62_one_success_per_key.
Print Assumptions C62_unerased_key_is_found.
Print Assumptions C62_entries_unchanged.
Print Assumptions C62_accesses_defined.
Print Assumptions C62_at_rest.

(** a run: keys 1, 2, 3 in the list of bucket 0 (entries 0 -> 5 -> 4), 100 in bucket 1.  Two threads erase 2, one finds 3 while standing on the entry
    of 2 that is being unlinked and then erases 3.  Seen with both erases in progress, and at the end. *)
Definition eex_step := estep (V:=Z) (fun v => v) uex_hash Z.eqb 2 4.
Definition eex_progs : list (list (cop Z Z)) := [[CErase 2; CFind 2]; [CErase 2; CFind 100]; [CFind 3; CErase 3]].
Example C62_ex : exists H u s1 ls1 s2 ls2,
  erase_find_run (V:=Z) (fun v => v) uex_hash Z.eqb (fun n => seq 0 n) 2 4 2 H u eex_progs s1 ls1 /\
  (exists t, ls1 !! 0%nat = Some t /\ c_pc t <> UIdle) /\ (exists t, ls1 !! 1%nat = Some t /\ c_pc t <> UIdle) /\
  erase_find_run (V:=Z) (fun v => v) uex_hash Z.eqb (fun n => seq 0 n) 2 4 2 H u eex_progs s2 ls2 /\ all_returned ls2 /\
  c_log <$> ls2 = [[(CErase 2, RErased true); (CFind 2, RFound None)]; [(CErase 2, RErased false); (CFind 100, RFound (Some 1%nat))]; [(CFind 3, RFound (Some 4%nat)); (CErase 3, RErased true)]] /\
  not_erased (fun v => v) Z.eqb ls2 [1; 2; 3; 100] = [1; 100] /\ present (fun v => v) uex_hash Z.eqb 2 (shared_of u) 2.
Proof.
  assert (Hpre : key_equality Z.eqb /\ hash_respects Z.eqb uex_hash /\ any_order (fun n => seq 0 n) /\ sizes_ok 2 4 /\ (2 <= 2)%nat).
  { unfold key_equality, hash_respects, any_order, sizes_ok, INT_MAX. split; [split; [apply Z.eqb_refl|split; intros *; rewrite !Z.eqb_eq; congruence]|]. split; [intros a b; rewrite Z.eqb_eq; congruence|]. split; [reflexivity|lia]. }
  destruct Hpre as (P1 & P2 & P3 & P4 & P5).
  assert (Hp : erases_and_lookups eex_progs).
  { intros prog op H1 H2. repeat (apply elem_of_cons in H1 as [-> |H1]; [repeat (apply elem_of_cons in H2 as [-> |H2]; [exact I|]); inversion H2|]); inversion H1. }
  assert (Hu : exists H u, history (V:=Z) (fun v => v) uex_hash Z.eqb (fun n => seq 0 n) 2 2 4 H u /\ exists u0 rs, uex_new 4 = Ret u0 /\ uex_run u0 [UInsert 1; UInsert 2; UInsert 3; UInsert 100] = Ret (u, rs)).
  { eexists _, _. split; [eapply then_phase; [eapply (created _ _ _ _ _ _ _ []); vm_compute; reflexivity|]; eapply (run_calls _ _ _ _ _ _ _ _ [UInsert 1; UInsert 2; UInsert 3; UInsert 100]); [repeat constructor|vm_compute; reflexivity]|].
    eexists _, _. split; [vm_compute; reflexivity|]. vm_compute. reflexivity. }
  destruct Hu as (H & u & HH & u0 & rs & E1 & E2). vm_compute in E1. injection E1 as <-. vm_compute in E2. injection E2 as <- <-.
  match type of HH with history _ _ _ _ _ _ _ _ ?x => set (u := x) in * end.
  exists H, u.
  set (sched1 := replicate 7 2%nat ++ replicate 7 1%nat ++ replicate 25 0%nat ++ replicate 3 1%nat).
  eexists _, _, _, _.
  split; [repeat (split; [assumption|]); apply (run_reach eex_step sched1); vm_compute; reflexivity|].
  split; [eexists; split; [vm_compute; reflexivity|discriminate]|]. split; [eexists; split; [vm_compute; reflexivity|discriminate]|].
  split; [repeat (split; [assumption|]); apply (run_reach eex_step (sched1 ++ replicate 19 0%nat ++ replicate 24 1%nat ++ replicate 38 2%nat)); vm_compute; reflexivity|].
  split; [intros t Ht; repeat (apply elem_of_cons in Ht as [-> |Ht]; [split; reflexivity|]); inversion Ht|].
  split; [vm_compute; reflexivity|]. split; [vm_compute; reflexivity|].
  exists 5%nat, 0%nat, 2. split; [vm_compute; reflexivity|]. split; [apply rtc_once; exists 5; repeat split; discriminate|]. split; [split; reflexivity|reflexivity].
Qed.

(** ** C64 fails for value types with a non-trivial destructor: a find saw the entry of key 1 occupied, another thread erases the
    key and destroys the value, and the find reads the destroyed value: it has no defined next step (UConcModel.v, where destroying ends the
    lifetime of the value) *)
Theorem C64_destroyed_value_read_refuted : exists (u0 u : utab Z) rs s ls t,
  uex_new 4 = Ret u0 /\ uex_run u0 [UInsert 1] = Ret (u, rs) /\ erases_and_lookups (K:=Z) (V:=Z) [[CFind 1]; [CErase 1]] /\
  Conc.reach (uex_step 4) (shared_of u, c_start [[CFind 1]; [CErase 1]]) (s, ls) /\
  ls !! 0%nat = Some t /\ c_prog t = [CFind 1] /\ c_pc t = FVal FUser 0 /\ c_values s !! 0%nat = Some None /\ uex_step 4 0 s t = None.
Proof.
  eexists _, _, _, _, _, _. split; [vm_compute; reflexivity|]. split; [vm_compute; reflexivity|].
  split. { intros prog op H1 H2. repeat (apply elem_of_cons in H1 as [-> |H1]; [repeat (apply elem_of_cons in H2 as [-> |H2]; [exact I|]); inversion H2|]); inversion H1. }
  split; [apply (run_reach _ (replicate 2 0%nat ++ replicate 9 1%nat)); vm_compute; reflexivity|].
  split; [vm_compute; reflexivity|]. repeat split; vm_compute; reflexivity.
Qed.
Print Assumptions C64_destroyed_value_read_refuted.
