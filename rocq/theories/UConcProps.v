(** C37-C39: concurrent use of unordered_map / unordered_set. *)
From Verif Require Import Base Conc SlotModel SlotSpec VectorModel UnorderedModel UnorderedSpec UConcModel UConcSpec UConcTop.

(** concrete tables for the examples: keys below 100 share bucket 0, the others bucket 1 *)
Definition uex_hash (k : Z) : Z := if k <? 100 then 0 else 1.
Definition uex_run (u0 : utab Z) (ops : list (uop Z Z)) := u_run (V:=Z) (fun v => v) uex_hash Z.eqb true (fun n => seq 0 n) 2 u0 ops.
Definition uex_new (excess : nat) := unordered_create (V:=Z) (fun n => seq 0 n) [] 2 (Z.of_nat excess).
Definition uex_step (excess : nat) := ustep (V:=Z) (fun v => v) uex_hash Z.eqb 2 excess.

(** ** C37: inserts and lookups by any number of threads, started on any container [u] that calls of one caller produced, in any
    interleaving [reach] of their accesses.  (UConcSpec.v: [entry], [content], [result], ...) *)
Definition insert_find_run {K V} (kf : V -> K) (hash : K -> Z) (keq : K -> K -> bool) (opt : bool) (ord : nat -> list nat) (buckets excess fuel : nat)
    (u : utab V) (progs : list (list (cop K V))) (s : cshared V) (ls : list (cthread K V)) : Prop :=
  key_equality keq /\ hash_respects keq hash /\ any_order ord /\ sizes_ok buckets excess /\ (2 <= fuel)%nat /\
  (exists u0, reachable kf hash keq opt ord fuel buckets excess u0 u) /\ inserts_and_lookups progs /\
  Conc.reach (ustep kf hash keq buckets excess) (shared_of u, c_start progs) (s, ls).

(** at no time two entries with equal keys *)
Theorem C37_no_duplicate_key : forall (K V : Type) kf hash keq opt ord buckets excess fuel (u : utab V) (progs : list (list (cop K V))) s ls,
  insert_find_run kf hash keq opt ord buckets excess fuel u progs s ls ->
  forall p q v w, entry s p v -> entry s q w -> keq (kf v) (kf w) = true -> p = q.
Proof. intros * (Hk & Hh & Ho & Hs & Hf & (u0 & Hu) & Hp & R) *. apply (reachable_rep kf hash keq opt ord buckets excess fuel u0 u Hk Hh Ho Hs Hf) in Hu. eapply top_no_duplicate; eassumption. Qed.
(** an entry stays where it is with its value: no stored key disappears, no value changes *)
Theorem C37_entries_persist : forall (K V : Type) kf hash keq opt ord buckets excess fuel (u : utab V) (progs : list (list (cop K V))) s ls,
  insert_find_run kf hash keq opt ord buckets excess fuel u progs s ls ->
  forall s' ls' p v, Conc.reach (ustep kf hash keq buckets excess) (s, ls) (s', ls') -> entry s p v -> entry s' p v.
Proof. intros * (Hk & Hh & Ho & Hs & Hf & (u0 & Hu) & Hp & R) *. apply (reachable_rep kf hash keq opt ord buckets excess fuel u0 u Hk Hh Ho Hs Hf) in Hu. eapply top_persist; eassumption. Qed.
(** an insert that returned (iterator to p, true) has stored its value there *)
Theorem C37_inserted_is_stored : forall (K V : Type) kf hash keq opt ord buckets excess fuel (u : utab V) (progs : list (list (cop K V))) s ls,
  insert_find_run kf hash keq opt ord buckets excess fuel u progs s ls ->
  forall p v, result ls (CInsert v) (RInserted p) -> entry s p v.
Proof. intros * (Hk & Hh & Ho & Hs & Hf & (u0 & Hu) & Hp & R) *. apply (reachable_rep kf hash keq opt ord buckets excess fuel u0 u Hk Hh Ho Hs Hf) in Hu. eapply top_inserted; eassumption. Qed.
(** at most one insert per key returns success, none for a key that was there before *)
Theorem C37_one_success_per_key : forall (K V : Type) kf hash keq opt ord buckets excess fuel (u : utab V) (progs : list (list (cop K V))) s ls,
  insert_find_run kf hash keq opt ord buckets excess fuel u progs s ls ->
  forall M0, content kf keq (shared_of u) M0 -> keys_distinct kf keq (M0 ++ inserted_values ls).
Proof. intros * (Hk & Hh & Ho & Hs & Hf & (u0 & Hu) & Hp & R) *. apply (reachable_rep kf hash keq opt ord buckets excess fuel u0 u Hk Hh Ho Hs Hf) in Hu. eapply top_distinct; eassumption. Qed.
(** nothing else gets in: every entry was there before, or is of an insert that returned success or is running *)
Theorem C37_entries_origin : forall (K V : Type) kf hash keq opt ord buckets excess fuel (u : utab V) (progs : list (list (cop K V))) s ls,
  insert_find_run kf hash keq opt ord buckets excess fuel u progs s ls ->
  forall p v, entry s p v -> (exists p0, entry (shared_of u) p0 v) \/ (exists p0, result ls (CInsert v) (RInserted p0)) \/
    (exists t rest, t ∈ ls /\ c_prog t = CInsert v :: rest /\ c_pc t <> UIdle).
Proof. intros * (Hk & Hh & Ho & Hs & Hf & (u0 & Hu) & Hp & R) *. apply (reachable_rep kf hash keq opt ord buckets excess fuel u0 u Hk Hh Ho Hs Hf) in Hu. eapply top_origin; eassumption. Qed.
(** whenever no call is running: the content is the old content and the values of the successful inserts, and size() is its size *)
Theorem C37_content_at_rest : forall (K V : Type) kf hash keq opt ord buckets excess fuel (u : utab V) (progs : list (list (cop K V))) s ls,
  insert_find_run kf hash keq opt ord buckets excess fuel u progs s ls -> c_quiescent ls ->
  forall M0, content kf keq (shared_of u) M0 ->
  content kf keq s (M0 ++ inserted_values ls) /\ c_count s = Z.of_nat (length (M0 ++ inserted_values ls)).
Proof. intros * (Hk & Hh & Ho & Hs & Hf & (u0 & Hu) & Hp & R) Hq *. apply (reachable_rep kf hash keq opt ord buckets excess fuel u0 u Hk Hh Ho Hs Hf) in Hu. eapply top_content; eassumption. Qed.
(** a lookup that starts after the key was stored (before the run, or by an insert that has returned) finds that entry *)
Theorem C37_stored_key_is_found : forall (K V : Type) kf hash keq opt ord buckets excess fuel (u : utab V) (progs : list (list (cop K V))) s ls,
  insert_find_run kf hash keq opt ord buckets excess fuel u progs s ls ->
  forall i t k rest p v, ls !! i = Some t -> c_pc t = UIdle -> c_prog t = CFind k :: rest ->
  entry (shared_of u) p v \/ result ls (CInsert v) (RInserted p) -> keq (kf v) k = true ->
  forall s' ls', Conc.reach (ustep kf hash keq buckets excess) (s, ls) (s', ls') ->
  exists t', ls' !! i = Some t' /\ ((c_prog t' = c_prog t /\ c_log t' = c_log t) \/ exists more, c_log t' = c_log t ++ (CFind k, RFound (Some p)) :: more).
Proof. intros * (Hk & Hh & Ho & Hs & Hf & (u0 & Hu) & Hp & R) *. apply (reachable_rep kf hash keq opt ord buckets excess fuel u0 u Hk Hh Ho Hs Hf) in Hu. intros Hi Hc Hpr Hv Hkk s' ls' R2. exact (top_find kf hash keq opt ord buckets excess Hk Hh Ho Hs fuel Hf u Hu progs Hp s ls s' ls' i t k rest p v R Hi Hc Hpr Hv Hkk R2). Qed.
(** what a lookup finds is a stored value with the key *)
Theorem C37_found_is_stored : forall (K V : Type) kf hash keq opt ord buckets excess fuel (u : utab V) (progs : list (list (cop K V))) s ls,
  insert_find_run kf hash keq opt ord buckets excess fuel u progs s ls ->
  forall k p, result ls (CFind k) (RFound (Some p)) -> exists v, entry s p v /\ keq (kf v) k = true.
Proof. intros * (Hk & Hh & Ho & Hs & Hf & (u0 & Hu) & Hp & R) *. apply (reachable_rep kf hash keq opt ord buckets excess fuel u0 u Hk Hh Ho Hs Hf) in Hu. eapply top_found; eassumption. Qed.
(** every access is inside the arrays and to a living value: no call is ever without a next step *)
Theorem C37_accesses_defined : forall (K V : Type) kf hash keq opt ord buckets excess fuel (u : utab V) (progs : list (list (cop K V))) s ls,
  insert_find_run kf hash keq opt ord buckets excess fuel u progs s ls ->
  forall i t, ls !! i = Some t -> c_prog t <> [] -> ustep kf hash keq buckets excess i s t <> None.
Proof. intros * (Hk & Hh & Ho & Hs & Hf & (u0 & Hu) & Hp & R) *. apply (reachable_rep kf hash keq opt ord buckets excess fuel u0 u Hk Hh Ho Hs Hf) in Hu. eapply top_progress; eassumption. Qed.
(** when an insert returns (end(), false): an equal key is stored, or all entries are taken, or the excess list is empty *)
Theorem C37_refusal_reasons : forall (K V : Type) kf hash keq opt ord buckets excess fuel (u : utab V) (progs : list (list (cop K V))) s ls,
  insert_find_run kf hash keq opt ord buckets excess fuel u progs s ls ->
  forall i t s' t' v, ls !! i = Some t -> ustep kf hash keq buckets excess i s t = Some (s', t') -> c_log t' = c_log t ++ [(CInsert v, RNotInserted)] ->
  (exists p w, entry s p w /\ keq (kf w) (kf v) = true) \/ c_count s = Z.of_nat (buckets + excess) \/ v_size (as_vec (c_ex s)) = 0.
Proof.
  intros * (Hk & Hh & Ho & Hs & Hf & (u0 & Hu) & Hp & R) *. apply (reachable_rep kf hash keq opt ord buckets excess fuel u0 u Hk Hh Ho Hs Hf) in Hu. intros Hi Hst Hl.
  destruct (top_refused kf hash keq opt ord buckets excess Hk Hh Ho Hs fuel Hf u Hu progs Hp s ls s' i t t' v R Hi Hst Hl) as [H|[H|H]]; [auto| |auto].
  right. right. unfold v_size, v_capacity, as_vec. cbn [v_occ v_n]. rewrite (top_excess_length kf hash keq opt ord buckets excess Hk Hh Ho Hs fuel Hf u Hu progs Hp s ls R). exact H.
Qed.
(** with at least as many free excess entries as insert calls: an insert is only refused because of an equal key, and whenever no call is
    running the container is valid and works like a finite map again *)
Theorem C37_refused_only_for_equal_key : forall (K V : Type) kf hash keq opt ord buckets excess fuel (u : utab V) (progs : list (list (cop K V))) s ls,
  insert_find_run kf hash keq opt ord buckets excess fuel u progs s ls -> Z.of_nat (insert_calls progs) <= v_size (u_excess u) ->
  forall v, result ls (CInsert v) RNotInserted -> exists p w, entry s p w /\ keq (kf w) (kf v) = true.
Proof. intros * (Hk & Hh & Ho & Hs & Hf & (u0 & Hu) & Hp & R) Hroom v Hr. apply (reachable_rep kf hash keq opt ord buckets excess fuel u0 u Hk Hh Ho Hs Hf) in Hu. eapply top_room; eassumption. Qed.
Theorem C37_well_formed_at_rest_partial : forall (K V : Type) kf hash keq opt ord buckets excess fuel (u : utab V) (progs : list (list (cop K V))) s ls,
  insert_find_run kf hash keq opt ord buckets excess fuel u progs s ls -> Z.of_nat (insert_calls progs) <= v_size (u_excess u) ->
  c_quiescent ls -> forall M0, content kf keq (shared_of u) M0 ->
  u_valid kf hash keq ord (utab_of buckets (u_indices u) s) = Ret true /\
  forall ops, Forall (uop_ok (Z.of_nat buckets)) ops -> exists u' rs M (bucket : K -> Z), u_run kf hash keq true ord fuel (utab_of buckets (u_indices u) s) ops = Ret (u', rs) /\
    (forall k, u_bucket hash (utab_of buckets (u_indices u) s) k = Ret (bucket k)) /\
    exists M1, M1 ≡ₚ M0 ++ inserted_values ls /\ spec_urun kf keq bucket (Z.of_nat (buckets + excess)) M1 ops rs M.
Proof. intros * (Hk & Hh & Ho & Hs & Hf & (u0 & Hu) & Hp & R) Hroom Hq M0 HM. apply (reachable_rep kf hash keq opt ord buckets excess fuel u0 u Hk Hh Ho Hs Hf) in Hu. eapply top_quiet; eassumption. Qed.
Print Assumptions C37_no_duplicate_key.
Print Assumptions C37_entries_persist.
Print Assumptions C37_inserted_is_stored.
Print Assumptions C37_one_success_per_key.
Print Assumptions C37_entries_origin.
Print Assumptions C37_content_at_rest.
Print Assumptions C37_stored_key_is_found.
Print Assumptions C37_found_is_stored.
Print Assumptions C37_accesses_defined.
Print Assumptions C37_refusal_reasons.
Print Assumptions C37_refused_only_for_equal_key.
Print Assumptions C37_well_formed_at_rest_partial.

(** a run: keys 1, 100 stored; three threads insert 2, 2 and 3, all into bucket 0, and look up 1, 2, 3; the second and the third lose races for
    the end of the list.  Seen at a state with an insert and a lookup in progress, and at the end. *)
Definition uex_progs : list (list (cop Z Z)) := [[CInsert 2; CFind 3]; [CInsert 2; CFind 1]; [CInsert 3; CFind 2]].
Example C37_ex : exists u0 u rs s1 ls1 s2 ls2,
  uex_new 4 = Ret u0 /\ uex_run u0 [UInsert 1; UInsert 100] = Ret (u, rs) /\
  insert_find_run (V:=Z) (fun v => v) uex_hash Z.eqb true (fun n => seq 0 n) 2 4 2 u uex_progs s1 ls1 /\
  c_log <$> ls1 = [[(CInsert 2, RInserted 5)]; []; []] /\ (exists t, ls1 !! 2%nat = Some t /\ c_pc t <> UIdle) /\
  insert_find_run (V:=Z) (fun v => v) uex_hash Z.eqb true (fun n => seq 0 n) 2 4 2 u uex_progs s2 ls2 /\ all_returned ls2 /\
  c_log <$> ls2 = [[(CInsert 2, RInserted 5); (CFind 3, RFound (Some 4%nat))]; [(CInsert 2, RNotInserted); (CFind 1, RFound (Some 0%nat))]; [(CInsert 3, RInserted 4); (CFind 2, RFound (Some 5%nat))]] /\
  inserted_values ls2 = [2; 3] /\ content (fun v => v) Z.eqb (shared_of u) [1; 100] /\
  Z.of_nat (insert_calls uex_progs) <= v_size (u_excess u).
Proof.
  assert (Hpre : key_equality Z.eqb /\ hash_respects Z.eqb uex_hash /\ any_order (fun n => seq 0 n) /\ sizes_ok 2 4 /\ (2 <= 2)%nat).
  { unfold key_equality, hash_respects, any_order, sizes_ok, INT_MAX. split; [split; [apply Z.eqb_refl|split; intros *; rewrite !Z.eqb_eq; congruence]|]. split; [intros a b; rewrite Z.eqb_eq; congruence|]. split; [reflexivity|lia]. }
  destruct Hpre as (P1 & P2 & P3 & P4 & P5).
  eexists _, _, _, _, _, _, _. split; [vm_compute; reflexivity|]. split; [vm_compute; reflexivity|].
  match goal with |- insert_find_run _ _ _ _ _ _ _ _ ?x _ _ _ /\ _ => set (u := x) end.
  assert (Hu : exists u0, reachable (V:=Z) (fun v => v) uex_hash Z.eqb true (fun n => seq 0 n) 2 2 4 u0 u).
  { eexists. exists [], [UInsert 1; UInsert 100]. eexists. split; [repeat constructor|]. split; [vm_compute; reflexivity|vm_compute; reflexivity]. }
  assert (Hp : inserts_and_lookups uex_progs).
  { intros prog op H1 H2. repeat (apply elem_of_cons in H1 as [-> |H1]; [repeat (apply elem_of_cons in H2 as [-> |H2]; [exact I|]); inversion H2|]); inversion H1. }
  set (sched1 := replicate 8 1%nat ++ replicate 8 2%nat ++ replicate 28 0%nat ++ replicate 2 2%nat).
  split; [repeat (split; [assumption|]); apply (run_reach _ sched1); vm_compute; reflexivity|].
  split; [vm_compute; reflexivity|]. split; [eexists; split; [vm_compute; reflexivity|discriminate]|].
  split; [repeat (split; [assumption|]); apply (run_reach _ (sched1 ++ replicate 10 1%nat ++ replicate 56 2%nat ++ replicate 2 1%nat ++ replicate 11 0%nat)); vm_compute; reflexivity|].
  split; [intros t Ht; repeat (apply elem_of_cons in Ht as [-> |Ht]; [split; reflexivity|]); inversion Ht|].
  split; [vm_compute; reflexivity|]. split; [vm_compute; reflexivity|]. split; [|vm_compute; discriminate].
  split; [intros [|[|?]] [|[|?]] v w H1 H2; cbn in H1, H2; try discriminate; injection H1 as <-; injection H2 as <-; cbn; try discriminate; auto|].
  intros v. split.
  - intros H. repeat (apply elem_of_cons in H as [-> |H]); [exists 0%nat|exists 1%nat|inversion H]; split; reflexivity.
  - intros (p & H1 & H2). do 6 (destruct p as [|p]; [vm_compute in H1, H2; try discriminate; injection H1 as <-; set_solver|]). vm_compute in H1. destruct p; discriminate.
Qed.

(** ** C37, the part that fails: two inserts race for the last excess entry.  Both find the excess list non-empty, one of them
    takes its size to -1.  Then valid() is false although no call is running, and the next erase cannot give its entry back: the
    container stores {1, 100} again, but rejects the key 3 that it accepted with this content before. *)
Theorem C37_overfull_race_refuted : exists (u0 u : utab Z) rs s ls s2 ls2,
  uex_new 1 = Ret u0 /\ uex_run u0 [UInsert 1; UInsert 100] = Ret (u, rs) /\
  reach (uex_step 1) (shared_of u, c_start [[CInsert 2; CErase 2; CInsert 3]; [CInsert 101]]) (s, ls) /\
  c_quiescent ls /\ c_log <$> ls = [[(CInsert 2, RInserted 2)]; [(CInsert 101, RNotInserted)]] /\
  (exists b, uex_run u [UValid; UInsert 3] = Ret b /\ b.2 = [UBool true; UIns true (Some 3)]) /\
  u_valid (fun v => v) uex_hash Z.eqb (fun n => seq 0 n) (utab_of 2 (u_indices u) s) = Ret false /\
  reach (uex_step 1) (s, ls) (s2, ls2) /\ c_quiescent ls2 /\
  c_log <$> ls2 = [[(CInsert 2, RInserted 2); (CErase 2, RErased true); (CInsert 3, RNotInserted)]; [(CInsert 101, RNotInserted)]] /\
  c_occ s2 = u_occ u /\ c_values s2 = u_values u.
Proof.
  eexists _, _, _, _, _, _, _. split; [vm_compute; reflexivity|]. split; [vm_compute; reflexivity|].
  split; [apply (run_reach _ (replicate 15 0%nat ++ replicate 15 1%nat ++ replicate 13 0%nat ++ replicate 3 1%nat)); vm_compute; reflexivity|].
  split; [intros t Ht; repeat (apply elem_of_cons in Ht as [-> |Ht]; [reflexivity|]); inversion Ht|].
  split; [vm_compute; reflexivity|]. split; [eexists; split; vm_compute; reflexivity|]. split; [vm_compute; reflexivity|].
  split; [apply (run_reach _ (replicate 32 0%nat)); vm_compute; reflexivity|].
  split; [intros t Ht; repeat (apply elem_of_cons in Ht as [-> |Ht]; [reflexivity|]); inversion Ht|].
  split; [vm_compute; reflexivity|]. split; vm_compute; reflexivity.
Qed.
Print Assumptions C37_overfull_race_refuted.

(** ** C38 fails: with [1] stored and its bucket list 0 -> ..., a thread that saw the head occupied waits before locking the list end,
    the head is erased and the key inserted there by a second thread, and the first thread appends the same key: both inserts succeed *)
Theorem C38_duplicate_key_refuted : exists (u0 u : utab Z) rs s ls p q,
  uex_new 4 = Ret u0 /\ uex_run u0 [UInsert 1; UInsert 2] = Ret (u, rs) /\
  reach (uex_step 4) (shared_of u, c_start [[CErase 1]; [CInsert 9]; [CInsert 9]]) (s, ls) /\
  c_quiescent ls /\ c_log <$> ls = [[(CErase 1, RErased true)]; [(CInsert 9, RInserted p)]; [(CInsert 9, RInserted q)]] /\ p <> q /\
  c_occ s !! p = Some true /\ c_occ s !! q = Some true /\ c_values s !! p = Some (Some 9) /\ c_values s !! q = Some (Some 9).
Proof.
  eexists _, _, _, _, _, _, _. split; [vm_compute; reflexivity|]. split; [vm_compute; reflexivity|].
  split; [apply (run_reach _ (replicate 24 2%nat ++ replicate 10 0%nat ++ replicate 22 1%nat ++ replicate 16 2%nat)); vm_compute; reflexivity|].
  split; [intros t Ht; repeat (apply elem_of_cons in Ht as [-> |Ht]; [reflexivity|]); inversion Ht|].
  split; [vm_compute; reflexivity|]. split; [lia|]. repeat split; vm_compute; reflexivity.
Qed.
Print Assumptions C38_duplicate_key_refuted.

(** ** C39 fails: the list of bucket 0 is 0 -> 5 -> 4 with the keys 1, 2, 3.  A find of 3 stands on entry 5 when another thread erases 2; the
    entry goes to the new key 101 of bucket 1, whose list ends there, and the find returns end() although 3 is stored all the time *)
Theorem C39_missed_key_refuted : exists (u0 u : utab Z) rs s ls,
  uex_new 4 = Ret u0 /\ uex_run u0 [UInsert 1; UInsert 2; UInsert 3; UInsert 100] = Ret (u, rs) /\
  (exists sched, run (uex_step 4) sched (shared_of u, c_start [[CFind 3]; [CErase 2]; [CInsert 101]]) = Some (s, ls) /\
     forall sched1 sched2 s1 ls1, sched = sched1 ++ sched2 -> run (uex_step 4) sched1 (shared_of u, c_start [[CFind 3]; [CErase 2]; [CInsert 101]]) = Some (s1, ls1) ->
       c_values s1 !! 4%nat = Some (Some 3) /\ c_occ s1 !! 4%nat = Some true) /\
  c_quiescent ls /\ c_log <$> ls = [[(CFind 3, RFound None)]; [(CErase 2, RErased true)]; [(CInsert 101, RInserted 5)]].
Proof.
  eexists _, _, _, _, _. split; [vm_compute; reflexivity|]. split; [vm_compute; reflexivity|].
  match goal with |- context [run _ _ (?x, _)] => set (s0 := x) end.
  set (sched := replicate 7 0%nat ++ replicate 36 1%nat ++ replicate 28 2%nat ++ [0%nat]).
  assert (Hchk : forallb (fun n => match run (uex_step 4) (take n sched) (s0, c_start [[CFind 3]; [CErase 2]; [CInsert 101]]) with
    | Some (s1, _) => match c_values s1 !! 4%nat, (c_occ s1 !! 4%nat : option bool) with Some (Some z), Some true => z =? 3 | _, _ => false end | None => true end) (seq 0 73) = true) by (vm_compute; reflexivity).
  split; [exists sched; split; [vm_compute; reflexivity|]|].
  - intros sched1 sched2 s1 ls1 Hs Hr.
    assert (Hn : length sched1 ∈ seq 0 73). { apply elem_of_seq. assert (length sched = 72%nat) by reflexivity. rewrite Hs, app_length in H. lia. }
    rewrite forallb_forall in Hchk. specialize (Hchk (length sched1)). rewrite <- elem_of_list_In in Hchk. specialize (Hchk Hn).
    rewrite Hs, take_app, Hr in Hchk. destruct (c_values s1 !! 4%nat) as [[z|]|]; try discriminate.
    destruct (c_occ s1 !! 4%nat) as [[]|]; try discriminate. apply Z.eqb_eq in Hchk as ->. auto.
  - split; [intros t Ht; repeat (apply elem_of_cons in Ht as [-> |Ht]; [reflexivity|]); inversion Ht|]. vm_compute. reflexivity.
Qed.
Print Assumptions C39_missed_key_refuted.
