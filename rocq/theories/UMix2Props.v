(** C68: kernels in which one thread inserts and one thread erases. *)
From Verif Require Import Base Conc SlotModel SlotSpec VectorModel UnorderedModel UnorderedSpec UnorderedProofs UConcModel UConcSpec UConcProps UEraseModel UEraseSpec UHistSpec UHistProofs UMixSpec UMixProps UMixTop.

(** one thread ([ins]) inserts, one thread ([ers], maybe the same) erases, and any number of threads, these two included, look keys up, on any
    container [u] that a history of phases [H] (UHistSpec.v) produced, in any interleaving of their accesses; value types with a trivial
    destructor.  [past]: the states of the run before [(s, ls)] *)
Definition one_one_run {K V} (kf : V -> K) (hash : K -> Z) (keq : K -> K -> bool) (ord : nat -> list nat) (buckets excess fuel : nat)
    (H : list (phase K V)) (u : utab V) (ins ers : nat) (progs : list (list (cop K V))) past (s : cshared V) (ls : list (cthread K V)) : Prop :=
  key_equality keq /\ hash_respects keq hash /\ any_order ord /\ sizes_ok buckets excess /\ (2 <= fuel)%nat /\
  history kf hash keq ord fuel buckets excess H u /\ one_inserts_one_erases ins ers progs /\
  visited (estep kf hash keq buckets excess) (shared_of u, c_start progs) past (s, ls).
Ltac one_hyps := intros * (Hk & Hh & Ho & Hs & Hf & HH & Hp & HV); destruct (history_urep _ _ _ _ _ _ Hk Hh Ho Hs _ Hf _ _ HH) as (G0 & st0 & Ru);
  assert (HP : key_equality _ /\ hash_respects _ _ /\ sizes_ok _ _) by (split; [exact Hk|split; [exact Hh|exact Hs]]).
(** every reachable state is the end of such a run *)
Theorem C68_all_runs : forall (K V : Type) kf hash keq (buckets excess : nat) (c0 c : cshared V * list (cthread K V)),
  Conc.reach (estep kf hash keq buckets excess) c0 c <-> exists past, visited (estep kf hash keq buckets excess) c0 past c.
Proof. intros. apply reach_visited. Qed.
(** every access is inside the arrays and to a constructed value: no call is ever without a next step *)
Theorem C68_accesses_defined : forall (K V : Type) kf hash keq ord buckets excess fuel H (u : utab V) ins ers (progs : list (list (cop K V))) past s ls,
  one_one_run kf hash keq ord buckets excess fuel H u ins ers progs past s ls ->
  forall i t, ls !! i = Some t -> c_prog t <> [] -> estep kf hash keq buckets excess i s t <> None.
Proof.
  one_hyps. intros i t Hi Hpr. pose proof (start_top kf hash keq buckets excess HP _ ins ers u G0 st0 progs Ru eq_refl Hp) as T0. destruct (top_visited kf hash keq buckets excess HP _ ins ers _ _ _ _ _ T0 HV) as (Hev & T & _).
  destruct (top_next kf hash keq buckets excess HP _ ins ers s ls Hev i t T Hi Hpr) as (s' & t' & H' & -> & _). discriminate.
Qed.
(** the inserts and erases are linearizable: there is one order [h] of all that have returned, and maybe of those that are running, in which
    they explain each other's results when run one after the other on the initial values, which leaves exactly the values that can be
    reached in the table; and at every earlier state of the run, the calls that had returned by then come first, those that had not begun come later *)
Theorem C68_linearizable : forall (K V : Type) kf hash keq ord buckets excess fuel H (u : utab V) ins ers (progs : list (list (cop K V))) past s ls,
  one_one_run kf hash keq ord buckets excess fuel H u ins ers progs past s ls ->
  forall M0, content kf keq (shared_of u) M0 ->
  exists h M, explained kf keq excess M0 h M /\ keys_distinct kf keq M /\ (forall v, v ∈ M <-> in_table kf hash buckets s v) /\ accounts_for ls h /\
    forall c1, c1 ∈ past -> exists ha hb, h = ha ++ hb /\ accounts_for c1.2 ha.
Proof.
  one_hyps. intros M0 HM. pose proof (start_top kf hash keq buckets excess HP _ ins ers u G0 st0 progs Ru eq_refl Hp) as T0. destruct (top_visited kf hash keq buckets excess HP _ ins ers _ _ _ _ _ T0 HV) as (Hev & T & Hcut).
  destruct (top_explained kf hash keq buckets excess HP _ ins ers s ls Hev T) as (M & E1 & E2 & E3). exists (told Hev), M. split.
  { eapply explained_perm; [|exact E1]. symmetry. eapply (rep_content_perm kf hash keq ord buckets excess Hk Hh Ho Hs fuel Hf); eassumption. }
  split; [exact E2|]. split; [exact E3|]. split.
  - exact (cut_all kf hash keq buckets excess _ ins ers s ls Hev T).
  - intros c1 Hc1. eapply cut_accounts; [exact (Hcut c1 Hc1)|]. exact (t_in _ _ _ _ _ _ _ _ _ _ _ T).
Qed.
(** whenever no call is running: the values in the container are those that such an order of the returned inserts and erases leaves, size() is
    their number, and valid() returns true *)
Theorem C68_at_rest : forall (K V : Type) kf hash keq ord buckets excess fuel H (u : utab V) ins ers (progs : list (list (cop K V))) past s ls,
  one_one_run kf hash keq ord buckets excess fuel H u ins ers progs past s ls -> c_quiescent ls ->
  forall M0, content kf keq (shared_of u) M0 ->
  (exists h M, explained kf keq excess M0 h M /\ (forall i t, ls !! i = Some t -> calls_of i h = updates (c_log t)) /\ (forall c1, c1 ∈ past -> exists ha hb, h = ha ++ hb /\ accounts_for c1.2 ha) /\
     content kf keq s M /\ c_count s = Z.of_nat (length M)) /\
  u_valid kf hash keq ord (utab_of buckets (u_indices u) (ended s)) = Ret true.
Proof.
  one_hyps. intros Hq M0 HM. pose proof (start_top kf hash keq buckets excess HP _ ins ers u G0 st0 progs Ru eq_refl Hp) as T0. destruct (top_visited kf hash keq buckets excess HP _ ins ers _ _ _ _ _ T0 HV) as (Hev & T & Hcut).
  destruct (quiet_shape kf hash keq buckets excess _ ins ers s ls Hev T Hq) as (G & F & C). split.
  - destruct (quiet_explained kf hash keq buckets excess HP _ ins ers s G F Hev C) as (E1 & E2 & E3). exists (told Hev), (G ≫= gvals). split.
    { eapply explained_perm; [|exact E1]. symmetry. eapply (rep_content_perm kf hash keq ord buckets excess Hk Hh Ho Hs fuel Hf); eassumption. }
    split; [|split; [|split; [exact E2|exact E3]]].
    + intros i t Hi. destruct (proj2 (cut_all kf hash keq buckets excess _ ins ers s ls Hev T) i t Hi) as [Ha|(op & rest & r & Hr & _)]; [exact Ha|]. destruct (Hr (Hq t (elem_of_list_lookup_2 _ _ _ Hi))).
    + intros c1 Hc1. eapply cut_accounts; [exact (Hcut c1 Hc1)|]. exact (t_in _ _ _ _ _ _ _ _ _ _ _ T).
  - destruct (quiet_rep kf hash keq buckets excess HP _ ins ers s G F Hev (u_indices u) C (ur_li _ _ _ _ _ _ _ _ _ _ Ru)) as (st' & R').
    destruct Hk as (kr & ks & kt), Hs as (Hbc & HE & Hmax). exact (valid_rep kf hash keq true ord Ho kr ks kt Hh buckets excess Hbc HE Hmax _ _ _ R').
Qed.
Print Assumptions C68_all_runs.
Print Assumptions C68_accesses_defined.
Print Assumptions C68_linearizable.
Print Assumptions C68_at_rest.

(** a run: the values 1, 2, 3 in the list 0 -> 5 -> 4 of bucket 0 and 100 in bucket 1.  Thread 0 inserts 2, stands on the entry of 2 and is refused, after
    the erase of 2 has returned 1: the insert takes effect before the erase.  Then thread 0 inserts 101, which takes the entry that the erase gave back.
    Seen with both calls running, and at the end.  Thread 2 looks up 3 and stands on that entry meanwhile: it is led astray and reports end() *)
Definition oex_progs : list (list (cop Z Z)) := [[CInsert 2; CInsert 101]; [CErase 2]; [CFind 3]].
Definition oex_step := estep (V:=Z) (fun v => v) uex_hash Z.eqb 2 4.
Definition oex_sched1 : list nat := sched_of [(8, 0); (6, 2); (20, 1)]%nat.
Definition oex_sched2 : list nat := sched_of [(8, 0); (6, 2); (36, 1); (1, 0); (28, 0); (2, 2)]%nat.
Definition oex_u : option (utab Z) := match uex_new 4 with Ret u0 => match uex_run u0 [UInsert 1; UInsert 2; UInsert 3; UInsert 100] with Ret (u, _) => Some u | _ => None end | _ => None end.
(** the states passed by a schedule, latest first *)
Fixpoint states {K V} (step : nat -> cshared V -> cthread K V -> option (cshared V * cthread K V)) (sched : list nat) (past : list (cshared V * list (cthread K V))) (c : cshared V * list (cthread K V)) : option (list (cshared V * list (cthread K V)) * (cshared V * list (cthread K V))) :=
  match sched with
  | [] => Some (past, c)
  | i :: sched => match c.2 !! i with None => None | Some t => match step i c.1 t with None => None | Some (s', t') => states step sched (c :: past) (s', <[i := t']> c.2) end end
  end.
Lemma states_visited {K V} step sched c0 past (c : cshared V * list (cthread K V)) r : visited step c0 past c -> states step sched past c = Some r -> visited step c0 r.1 r.2.
Proof.
  revert past c. induction sched as [|i sched IH]; intros past [s ls] HV Hr; cbn [states fst snd] in Hr; [injection Hr as <-; exact HV|].
  destruct (ls !! i) as [t|] eqn:Ei; [|discriminate]. destruct (step i s t) as [[s' t']|] eqn:Es; [|discriminate]. eapply IH; [|exact Hr]. econstructor; [exact HV|]. econstructor; eassumption.
Qed.
Lemma oex_start : exists H u, oex_u = Some u /\ forall past s ls, visited oex_step (shared_of u, c_start oex_progs) past (s, ls) ->
  one_one_run (V:=Z) (fun v => v) uex_hash Z.eqb (fun n => seq 0 n) 2 4 2 H u 0 1 oex_progs past s ls.
Proof.
  assert (Hpre : key_equality Z.eqb /\ hash_respects Z.eqb uex_hash /\ any_order (fun n => seq 0 n) /\ sizes_ok 2 4 /\ (2 <= 2)%nat).
  { unfold key_equality, hash_respects, any_order, sizes_ok, INT_MAX. split; [split; [apply Z.eqb_refl|split; intros *; rewrite !Z.eqb_eq; congruence]|]. split; [intros a b; rewrite Z.eqb_eq; congruence|]. split; [reflexivity|lia]. }
  destruct Hpre as (P1 & P2 & P3 & P4 & P5).
  assert (Hp : one_inserts_one_erases 0 1 oex_progs).
  { intros i prog op H1 H2. destruct i as [|[|[|i]]]; cbn in H1; try discriminate; injection H1 as <-; repeat (apply elem_of_cons in H2 as [-> |H2]; [first [exact I|reflexivity]|]); inversion H2. }
  assert (Hu : exists H u, oex_u = Some u /\ history (V:=Z) (fun v => v) uex_hash Z.eqb (fun n => seq 0 n) 2 2 4 H u).
  { eexists _, _. split; [vm_compute; reflexivity|]. eapply then_phase; [eapply (created _ _ _ _ _ _ _ []); vm_compute; reflexivity|]; eapply (run_calls _ _ _ _ _ _ _ _ [UInsert 1; UInsert 2; UInsert 3; UInsert 100]); [repeat constructor|vm_compute; reflexivity]. }
  destruct Hu as (H & u & Hu & HH). exists H, u. split; [exact Hu|]. intros past s ls HV. repeat (split; [assumption|]). exact HV.
Qed.
Example C68_ex : exists H u past1 s1 ls1 past2 s2 ls2,
  one_one_run (V:=Z) (fun v => v) uex_hash Z.eqb (fun n => seq 0 n) 2 4 2 H u 0 1 oex_progs past1 s1 ls1 /\
  c_pc <$> ls1 = [FVal FIns1 5; XAdd1 5 0; FVal FUser 5] /\
  one_one_run (V:=Z) (fun v => v) uex_hash Z.eqb (fun n => seq 0 n) 2 4 2 H u 0 1 oex_progs past2 s2 ls2 /\ all_returned ls2 /\
  c_log <$> ls2 = [[(CInsert 2, RNotInserted); (CInsert 101, RInserted 5)]; [(CErase 2, RErased true)]; [(CFind 3, RFound None)]] /\
  content (fun v => v) Z.eqb (shared_of u) [1; 2; 3; 100] /\
  explained (fun v => v) Z.eqb 4 [1; 2; 3; 100] [(0%nat, (CInsert 2, RNotInserted)); (1%nat, (CErase 2, RErased true)); (0%nat, (CInsert 101, RInserted 5))] [101; 1; 3; 100].
Proof.
  destruct oex_start as (H & u & Hu & Hrun). vm_compute in Hu. injection Hu as <-. match type of Hrun with forall _ _ _, visited _ (shared_of ?x, _) _ _ -> _ => set (u := x) in * end.
  assert (V1 : exists r, states oex_step oex_sched1 [] (shared_of u, c_start oex_progs) = Some r /\ c_pc <$> r.2.2 = [FVal FIns1 5; XAdd1 5 0; FVal FUser 5]) by (eexists; split; [vm_compute; reflexivity|]; vm_compute; reflexivity).
  assert (V2 : exists r, states oex_step oex_sched2 [] (shared_of u, c_start oex_progs) = Some r /\ all_returned r.2.2 /\
    c_log <$> r.2.2 = [[(CInsert 2, RNotInserted); (CInsert 101, RInserted 5)]; [(CErase 2, RErased true)]; [(CFind 3, RFound None)]]).
  { eexists. split; [vm_compute; reflexivity|]. split; [|vm_compute; reflexivity]. cbn [fst snd]. intros t Ht; repeat (apply elem_of_cons in Ht as [-> |Ht]; [split; reflexivity|]); inversion Ht. }
  destruct V1 as ([past1 [s1 ls1]] & V1 & R1), V2 as ([past2 [s2 ls2]] & V2 & R2 & R3). apply (states_visited _ _ _ _ _ _ (visit_start _ _)) in V1, V2. cbn [fst snd] in *.
  exists H, u, past1, s1, ls1, past2, s2, ls2. split; [apply Hrun; exact V1|]. split; [exact R1|]. split; [apply Hrun; exact V2|]. split; [exact R2|]. split; [exact R3|]. split.
  - split; [intros i j x y Hi Hj Hxy; destruct i as [|[|[|[|i]]]], j as [|[|[|[|j]]]]; cbn in Hi, Hj; try discriminate; injection Hi as <-; injection Hj as <-; try discriminate; reflexivity|].
    intros v. unfold entry. split.
    + intros Hv. repeat (apply elem_of_cons in Hv as [-> |Hv]; [first [exists 0%nat; split; reflexivity|exists 1%nat; split; reflexivity|exists 4%nat; split; reflexivity|exists 5%nat; split; reflexivity]|]). inversion Hv.
    + intros (p & Hp1 & Hp2). destruct p as [|[|[|[|[|[|p]]]]]]; cbn in Hp1, Hp2; try discriminate; injection Hp1 as <-; set_solver.
  - exists [1; 2; 3; 100]. split; [split; [left; exists 2; split; [set_solver|reflexivity]|reflexivity]|]. exists [1; 3; 100]. split; [exists 2; split; [reflexivity|constructor 3]|]. exists [101; 1; 3; 100]. split; [|cbn; reflexivity].
    split; [|reflexivity]. intros (v & Hv & Hk). repeat (apply elem_of_cons in Hv as [-> |Hv]; [discriminate|]). inversion Hv.
Qed.

(** ** C69: lookups.  In the run above 3 can be reached in every state, and the lookup of 3 returns end() *)
Theorem C69_stored_key_missed_refuted : exists H u past s ls,
  one_one_run (V:=Z) (fun v => v) uex_hash Z.eqb (fun n => seq 0 n) 2 4 2 H u 0 1 oex_progs past s ls /\ all_returned ls /\
  result ls (CFind 3) (RFound None) /\ forall c, c ∈ (s, ls) :: past -> in_table (fun v => v) uex_hash 2 c.1 3.
Proof.
  destruct oex_start as (H & u & Hu & Hrun). vm_compute in Hu. injection Hu as <-. match type of Hrun with forall _ _ _, visited _ (shared_of ?x, _) _ _ -> _ => set (u := x) in * end.
  pose (ok := fun c : cshared Z * list (cthread Z Z) => match c_off c.1 !! 0%nat, c_off c.1 !! 5%nat, c_values c.1 !! 4%nat, (c_occ c.1 !! 4%nat : option bool) with
    | Some a, Some b, Some (Some v), Some true => ((a =? 4) || ((a =? 5) && (b =? -1))) && (v =? 3) | _, _, _, _ => false end).
  assert (V2 : exists r, states oex_step oex_sched2 [] (shared_of u, c_start oex_progs) = Some r /\ all_returned r.2.2 /\ result r.2.2 (CFind 3) (RFound None) /\ forallb ok (r.2 :: r.1) = true).
  { eexists. split; [vm_compute; reflexivity|]. split; [|split]; [| |vm_compute; reflexivity].
    - cbn [fst snd]. intros t Ht; repeat (apply elem_of_cons in Ht as [-> |Ht]; [split; reflexivity|]); inversion Ht.
    - cbn [fst snd]. eexists. split; [right; right; left|]. left. }
  destruct V2 as ([past [s ls]] & V2 & R2 & R3 & R4). apply (states_visited _ _ _ _ _ _ (visit_start _ _)) in V2. cbn [fst snd] in *. exists H, u, past, s, ls. split; [apply Hrun; exact V2|]. split; [exact R2|]. split; [exact R3|].
  intros c Hc. rewrite forallb_forall in R4. specialize (R4 c (proj1 (elem_of_list_In _ _) Hc)). unfold ok in R4.
  destruct (c_off c.1 !! 0%nat) as [a|] eqn:E1; [|discriminate]. destruct (c_off c.1 !! 5%nat) as [b|] eqn:E2; [|discriminate]. destruct (c_values c.1 !! 4%nat) as [[v|]|] eqn:E3; try discriminate. destruct (c_occ c.1 !! 4%nat) as [[]|] eqn:E4; try discriminate.
  apply andb_true_iff in R4 as [R4 R5]. apply Z.eqb_eq in R5 as ->. exists 0%nat, 4%nat. split; [vm_compute; reflexivity|]. split; [|split; [exact E3|exact E4]].
  apply orb_true_iff in R4 as [R4|R4].
  - apply Z.eqb_eq in R4 as ->. apply rtc_once. exists 4. split; [exact E1|split; [discriminate|reflexivity]].
  - apply andb_true_iff in R4 as [R4 R6]. apply Z.eqb_eq in R4 as ->, R6 as ->. apply (rtc_l _ _ 5%nat); [exists 5; split; [exact E1|split; [discriminate|reflexivity]]|]. apply rtc_once. exists (-1). split; [exact E2|split; [discriminate|reflexivity]].
Qed.
Print Assumptions C69_stored_key_missed_refuted.
