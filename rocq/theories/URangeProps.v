(** C66: insert(begin, end) and erase(begin, end) of unordered_map / unordered_set. *)
From Verif Require Import Base Conc SlotModel SlotSpec VectorModel UnorderedModel UnorderedSpec UConcModel UConcSpec UConcProps UEraseModel UEraseSpec UHistSpec UHistProps URangeModel URangeProofs.

(** ** C66: on the container of any history of phases, for every distribution of the calls over threads and every interleaving (URangeModel.v).
    [content u M]: the values stored, [holds M k]: a value with key [k] is in [M]. *)
(** insert: the old values stay, the stored keys are the old keys and the keys of the range, a new key is stored with a value of the range *)
Theorem C66_insert_range : forall (K V : Type) (kf : V -> K) hash keq ord buckets excess fuel H (u u' : utab V) (vs M0 : list V),
  key_equality keq -> hash_respects keq hash -> any_order ord -> sizes_ok buckets excess -> (2 <= fuel)%nat ->
  history kf hash keq ord fuel buckets excess H u -> content kf keq (shared_of u) M0 ->
  Z.of_nat (length vs) <= v_size (u_excess u) -> insert_range kf hash keq buckets excess u vs u' ->
  exists M, content kf keq (shared_of u') M /\ u_size u' = Ret (Z.of_nat (length M)) /\ u_valid kf hash keq ord u' = Ret true /\
    (forall v, v ∈ M0 -> v ∈ M) /\ (forall v, v ∈ M -> v ∈ M0 \/ (v ∈ vs /\ ~ holds kf keq M0 (kf v))) /\
    (forall k, holds kf keq M k <-> holds kf keq M0 k \/ holds kf keq vs k).
Proof. intros * Hk Hh Ho Hs Hf HH HM Hroom Hr. destruct (insert_range_good kf hash keq ord buckets excess Hk Hh Ho Hs fuel Hf H u vs u' M0 HH HM Hroom Hr) as (M & H1 & H2 & H3 & H4 & H5 & H6 & _). exists M. auto 7. Qed.
(** erase: exactly the values with a key of the range are gone, whatever the schedule *)
Theorem C66_erase_range : forall (K V : Type) (kf : V -> K) hash keq ord buckets excess fuel H (u u' : utab V) (ks : list K) (M0 : list V),
  key_equality keq -> hash_respects keq hash -> any_order ord -> sizes_ok buckets excess -> (2 <= fuel)%nat ->
  history kf hash keq ord fuel buckets excess H u -> content kf keq (shared_of u) M0 -> erase_range kf hash keq buckets excess u ks u' ->
  exists M, content kf keq (shared_of u') M /\ u_size u' = Ret (Z.of_nat (length M)) /\ u_valid kf hash keq ord u' = Ret true /\
    (forall v, v ∈ M <-> v ∈ M0 /\ forall k, k ∈ ks -> keq (kf v) k = false).
Proof. intros * Hk Hh Ho Hs Hf HH HM Hr. destruct (erase_range_good kf hash keq ord buckets excess Hk Hh Ho Hs fuel Hf H u ks u' M0 HH HM Hr) as (M & H1 & H2 & H3 & H4 & _). exists M. auto. Qed.
(** a set: inserting a range gives the union, whatever the schedule *)
Theorem C66_set_insert_range_is_union : forall (K : Type) hash keq ord buckets excess fuel H (u u' : utab K) (vs M0 : list K),
  (forall a b, keq a b = true <-> a = b) -> any_order ord -> sizes_ok buckets excess -> (2 <= fuel)%nat ->
  history (fun v => v) hash keq ord fuel buckets excess H u -> content (fun v => v) keq (shared_of u) M0 ->
  Z.of_nat (length vs) <= v_size (u_excess u) -> insert_range (fun v => v) hash keq buckets excess u vs u' ->
  exists M, content (fun v => v) keq (shared_of u') M /\ forall v, v ∈ M <-> v ∈ M0 \/ v ∈ vs.
Proof.
  intros * Hq Ho Hs Hf HH HM Hroom Hr.
  assert (Hk : key_equality keq) by (split; [intros a; apply Hq; reflexivity|split; intros *; rewrite !Hq; congruence]).
  assert (Hh : hash_respects keq hash) by (intros a b Hab; apply Hq in Hab as ->; reflexivity).
  destruct (insert_range_good (fun v => v) hash keq ord buckets excess Hk Hh Ho Hs fuel Hf H u vs u' M0 HH HM Hroom Hr) as (M & H1 & _ & _ & _ & _ & H6 & _). exists M. split; [exact H1|].
  assert (Hh1 : forall (L : list K) k, holds (fun v => v) keq L k <-> k ∈ L).
  { intros L k. split; [intros (v & Hv & Hkv); apply Hq in Hkv as <-; exact Hv|]. intros Hv. exists k. split; [exact Hv|]. apply Hq. reflexivity. }
  intros v. rewrite <- !Hh1. apply H6.
Qed.
(** the calls can complete, and the container can be used on *)
Theorem C66_range_calls_can_complete : forall (K V : Type) (kf : V -> K) hash keq ord buckets excess fuel H (u : utab V),
  key_equality keq -> hash_respects keq hash -> any_order ord -> sizes_ok buckets excess -> (2 <= fuel)%nat ->
  history kf hash keq ord fuel buckets excess H u ->
  (forall vs, exists u', insert_range kf hash keq buckets excess u vs u') /\ (forall ks, exists u', erase_range kf hash keq buckets excess u ks u').
Proof. intros * Hk Hh Ho Hs Hf HH. exact (ranges_complete kf hash keq ord buckets excess Hk Hh Ho Hs fuel Hf H u HH). Qed.
Theorem C66_range_calls_continue_history : forall (K V : Type) (kf : V -> K) hash keq ord buckets excess fuel H (u u' : utab V) vs ks,
  key_equality keq -> hash_respects keq hash -> any_order ord -> sizes_ok buckets excess -> (2 <= fuel)%nat ->
  history kf hash keq ord fuel buckets excess H u ->
  (insert_range kf hash keq buckets excess u vs u' /\ Z.of_nat (length vs) <= v_size (u_excess u)) \/ erase_range kf hash keq buckets excess u ks u' ->
  exists ph, history kf hash keq ord fuel buckets excess (H ++ [ph]) u'.
Proof.
  intros * Hk Hh Ho Hs Hf HH Hr.
  assert (HM : exists M0, content kf keq (shared_of u) M0) by (destruct (UHistProofs.history_good kf hash keq ord buckets excess Hk Hh Ho Hs fuel Hf H u HH) as (M & _ & _ & _ & HM & _); eauto).
  destruct HM as [M0 HM]. destruct Hr as [[Hr Hroom]|Hr].
  - destruct (insert_range_good kf hash keq ord buckets excess Hk Hh Ho Hs fuel Hf H u vs u' M0 HH HM Hroom Hr) as (M & _ & _ & _ & _ & _ & _ & Hph). exact Hph.
  - destruct (erase_range_good kf hash keq ord buckets excess Hk Hh Ho Hs fuel Hf H u ks u' M0 HH HM Hr) as (M & _ & _ & _ & _ & Hph). exact Hph.
Qed.
Print Assumptions C66_insert_range.
Print Assumptions C66_erase_range.
Print Assumptions C66_set_insert_range_is_union.
Print Assumptions C66_range_calls_can_complete.
Print Assumptions C66_range_calls_continue_history.

(** the kernels of C63_ex, seen as range calls: {1, 100} and [2; 2; 3] from three threads, then [2; 2] erased by two threads *)
Example C66_ex : exists H u u1 u2,
  hex_hist H u /\ content (fun v => v) Z.eqb (shared_of u) [1; 100] /\
  insert_range (K:=Z) (fun v => v) uex_hash Z.eqb 2 4 u [2; 2; 3] u1 /\ Z.of_nat (length [2; 2; 3]) <= v_size (u_excess u) /\ u_size u1 = Ret 4 /\
  erase_range (V:=Z) (fun v => v) uex_hash Z.eqb 2 4 u1 [2; 2] u2 /\ u_size u2 = Ret 3.
Proof.
  assert (Hu : exists H u, history (V:=Z) (fun v => v) uex_hash Z.eqb (fun n => seq 0 n) 2 2 4 H u /\ exists u0 rs, uex_new 4 = Ret u0 /\ uex_run u0 [UInsert 1; UInsert 100] = Ret (u, rs)).
  { eexists _, _. split; [eapply then_phase; [eapply (created _ _ _ _ _ _ _ []); vm_compute; reflexivity|]; eapply (run_calls _ _ _ _ _ _ _ _ [UInsert 1; UInsert 100]); [repeat constructor|vm_compute; reflexivity]|].
    eexists _, _. split; [vm_compute; reflexivity|]. vm_compute. reflexivity. }
  destruct Hu as (H & u & HH & u0 & rs & E1 & E2). vm_compute in E1. injection E1 as <-. vm_compute in E2. injection E2 as <- <-.
  match type of HH with history _ _ _ _ _ _ _ _ ?x => set (u := x) in * end.
  exists H, u. eexists _, _. split; [exact HH|]. split.
  { split; [intros [|[|?]] [|[|?]] v w H1 H2; cbn in H1, H2; try discriminate; injection H1 as <-; injection H2 as <-; cbn; try discriminate; auto|].
    intros v. split.
    - intros Hv. repeat (apply elem_of_cons in Hv as [-> |Hv]); [exists 0%nat|exists 1%nat|inversion Hv]; split; reflexivity.
    - intros (p & H1 & H2). do 6 (destruct p as [|p]; [vm_compute in H1, H2; try discriminate; injection H1 as <-; set_solver|]). vm_compute in H1. destruct p; discriminate. }
  assert (Hret : forall (ls : list (cthread Z Z)), forallb (fun t => match c_prog t, c_pc t with [], UIdle => true | _, _ => false end) ls = true -> all_returned ls).
  { intros ls Hl t Ht. rewrite forallb_forall in Hl. apply elem_of_list_In in Ht. specialize (Hl t Ht). destruct (c_prog t), (c_pc t); try discriminate. auto. }
  split; [eapply (insert_range_run _ _ _ _ _ _ _ [[CInsert 2]; [CInsert 2]; [CInsert 3]]); [reflexivity|apply (run_reach _ (replicate 8 1%nat ++ replicate 8 2%nat ++ replicate 28 0%nat ++ replicate 19 1%nat ++ replicate 51 2%nat)); vm_compute; reflexivity|apply Hret; vm_compute; reflexivity]|].
  split; [vm_compute; discriminate|]. split; [vm_compute; reflexivity|].
  split; [eapply (erase_range_run _ _ _ _ _ _ _ [[CErase 2]; [CErase 2]]); [reflexivity|apply (run_reach _ (replicate 7 1%nat ++ replicate 25 0%nat ++ replicate 3 1%nat ++ replicate 11 0%nat ++ replicate 21 1%nat)); vm_compute; reflexivity|apply Hret; vm_compute; reflexivity]|].
  vm_compute; reflexivity.
Qed.
