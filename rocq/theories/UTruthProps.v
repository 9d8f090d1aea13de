(** C81: what calls report in any mixture of inserts, erases and lookups was so at a moment of the call. *)
From Verif Require Import Base Conc SlotModel SlotSpec VectorModel UnorderedModel UnorderedSpec UConcModel UConcSpec UConcProps UEraseModel UEraseSpec UHistSpec UHistProofs UMixSpec UMixTop UMixProps UMix2Props UOneSpec UOneTop USepSpec UAnyDefs UAnySpec UAnyTop UAnyProps UTruthSpec UTruthProofs.

Ltac truth R1 HP HV I0 T := match type of HV with visited (kernel_step ?kf ?hash ?keq ?bc ?E _) (?s1, c_start ?progs) _ _ => destruct (arest_start kf hash keq bc E s1 progs R1) as (? & I0) end; pose proof (tinv_visited _ _ _ _ _ HP _ _ _ _ _ _ I0 HV) as T.
(** the successful inserts and erases of a kernel have one order in which each has exactly its effect: an insert fills the free entry that it returns with its
    value, an erase empties one entry with an equal key, nothing else changes the content.  At every earlier point of the run a beginning of this order did,
    with the calls that had returned by then in it and no call that had not begun: the order respects the order of the calls in time *)
Theorem C81_effects_in_one_order : forall (K V : Type) trivial kf hash keq ord buckets excess fuel H (u : utab V) lss s1 (progs : list (list (cop K V))) past s ls,
  after_any_kernels trivial kf hash keq ord buckets excess fuel H u lss s1 ->
  visited (kernel_step kf hash keq buckets excess trivial) (s1, c_start progs) past (s, ls) ->
  exists h, effects kf keq (content_of s1) h (content_of s) /\ accounts_successes ls h /\
    forall s' ls', (s', ls') ∈ past -> exists h', h' `prefix_of` h /\ effects kf keq (content_of s1) h' (content_of s') /\ accounts_successes ls' h'.
Proof.
  any_hyps. intros HV. truth R1 HP HV I0 T. destruct (t_hist _ _ _ _ _ _ _ _ _ T) as (h & (HE & HA) & Hpre).
  assert (Hacc : forall c h0, explains kf keq s1 c h0 -> (exists M F P, ainv kf hash keq buckets excess M c.1 c.2 F P) -> accounts_successes c.2 h0).
  { intros c h0 [_ HA0] (M & F' & P' & I). apply exact_accounts_weaken; [exact HA0|]. intros i t Hi Ep. pose proof (a_thr kf hash keq buckets excess _ _ _ _ _ I i t Hi) as Ht. unfold athr in Ht. rewrite Ep in Ht. exact Ht. }
  assert (Hall : forall c, c ∈ (s, ls) :: past -> exists M F P, ainv kf hash keq buckets excess M c.1 c.2 F P) by exact (visited_ainv kf hash keq buckets excess HP _ _ _ _ _ _ I0 HV).
  exists h. split; [exact HE|]. split; [apply (Hacc (s, ls)); [split; assumption|apply Hall; left]|].
  intros s' ls' Hin. destruct (Hpre _ Hin) as (h' & H1 & H2). exists h'. split; [exact H1|]. split; [exact (proj1 H2)|]. apply (Hacc (s', ls') h' H2). apply Hall. right. exact Hin.
Qed.
(** what a lookup found was there at a moment of the lookup, stored or just being stored by an insert that was running *)
Theorem C81_found_was_there : forall (K V : Type) trivial kf hash keq ord buckets excess fuel H (u : utab V) lss s1 (progs : list (list (cop K V))) past s ls,
  after_any_kernels trivial kf hash keq ord buckets excess fuel H u lss s1 ->
  visited (kernel_step kf hash keq buckets excess trivial) (s1, c_start progs) past (s, ls) ->
  forall i t m k p, ls !! i = Some t -> c_log t !! m = Some (CFind k, RFound (Some p)) ->
  exists c, c ∈ past /\ in_call i m c /\ seen_at kf keq k p c.
Proof. any_hyps. intros HV. truth R1 HP HV I0 T. intros i t m k p Hi Hm. exact (t_log _ _ _ _ _ _ _ _ _ T i t m _ Hi Hm). Qed.
(** an insert is refused for a reason that held at a moment of the call: no room, or a value with an equal key *)
Theorem C81_refused_for_a_reason : forall (K V : Type) trivial kf hash keq ord buckets excess fuel H (u : utab V) lss s1 (progs : list (list (cop K V))) past s ls,
  after_any_kernels trivial kf hash keq ord buckets excess fuel H u lss s1 ->
  visited (kernel_step kf hash keq buckets excess trivial) (s1, c_start progs) past (s, ls) ->
  forall i t m w, ls !! i = Some t -> c_log t !! m = Some (CInsert w, RNotInserted) ->
  exists c, c ∈ past /\ in_call i m c /\ (no_room excess c \/ exists p, seen_at kf keq (kf w) p c).
Proof. any_hyps. intros HV. truth R1 HP HV I0 T. intros i t m w Hi Hm. exact (t_log _ _ _ _ _ _ _ _ _ T i t m _ Hi Hm). Qed.
Print Assumptions C81_effects_in_one_order.
Print Assumptions C81_found_was_there.
Print Assumptions C81_refused_for_a_reason.

(** the key 1 is stored in entry 0.  A lookup of 2 has read that entry 0 is occupied; then erase(1) runs, and insert(2) writes its value to entry 0 but has
    not yet made it visible: the lookup returns entry 0.  A second lookup by the same thread finds nothing, although nobody erases 2: the value of the first
    one was only being stored.  Another insert of 1 is refused, because 1 is stored when it looks *)
Definition tex_progs : list (list (cop Z Z)) := [[CFind 2; CFind 2]; [CErase 1]; [CInsert 2]; [CInsert 1]].
Definition tex_sched : list nat := sched_of [(2, 0); (5, 3); (10, 1); (11, 2); (4, 0)]%nat.
Definition tex_step := kernel_step (V:=Z) (fun v => v) uex_hash Z.eqb 2 4 true.
Definition tex_u : option (utab Z) := match uex_new 4 with Ret u0 => match uex_run u0 [UInsert 1; UInsert 100] with Ret (u, _) => Some u | _ => None end | _ => None end.
Example C81_ex : exists H u past s ls,
  after_any_kernels (V:=Z) true (fun v => v) uex_hash Z.eqb (fun n => seq 0 n) 2 4 2 H u [] (shared_of u) /\
  visited (kernel_step (fun v => v) uex_hash Z.eqb 2 4 true) (shared_of u, c_start tex_progs) past (s, ls) /\
  c_log <$> ls = [[(CFind 2, RFound (Some 0%nat)); (CFind 2, RFound None)]; [(CErase 1, RErased true)]; []; [(CInsert 1, RNotInserted)]] /\ c_pc <$> ls = [UIdle; UIdle; ICntB; UIdle].
Proof.
  assert (Hpre : key_equality Z.eqb /\ hash_respects Z.eqb uex_hash /\ any_order (fun n => seq 0 n) /\ sizes_ok 2 4 /\ (2 <= 2)%nat).
  { unfold key_equality, hash_respects, any_order, sizes_ok, INT_MAX. split; [split; [apply Z.eqb_refl|split; intros *; rewrite !Z.eqb_eq; congruence]|]. split; [intros a b; rewrite Z.eqb_eq; congruence|]. split; [reflexivity|lia]. }
  destruct Hpre as (P1 & P2 & P3 & P4 & P5).
  assert (Hu : exists H u, tex_u = Some u /\ history (V:=Z) (fun v => v) uex_hash Z.eqb (fun n => seq 0 n) 2 2 4 H u).
  { eexists _, _. split; [vm_compute; reflexivity|]. eapply then_phase; [eapply (created _ _ _ _ _ _ _ []); vm_compute; reflexivity|]; eapply (run_calls _ _ _ _ _ _ _ _ [UInsert 1; UInsert 100]); [repeat constructor|vm_compute; reflexivity]. }
  destruct Hu as (H & u & Hu & HH). vm_compute in Hu. injection Hu as <-. match type of HH with history _ _ _ _ _ _ _ _ ?x => set (u := x) in * end.
  assert (V1 : exists r, states tex_step tex_sched [] (shared_of u, c_start tex_progs) = Some r /\
    c_log <$> r.2.2 = [[(CFind 2, RFound (Some 0%nat)); (CFind 2, RFound None)]; [(CErase 1, RErased true)]; []; [(CInsert 1, RNotInserted)]] /\ c_pc <$> r.2.2 = [UIdle; UIdle; ICntB; UIdle])
    by (eexists; split; [vm_compute; reflexivity|]; split; vm_compute; reflexivity).
  destruct V1 as ([past [s ls]] & V1 & R1 & R2). apply (states_visited _ _ _ _ _ _ (visit_start _ _)) in V1. cbn [fst snd] in *. exists H, u, past, s, ls.
  split; [repeat (split; [assumption|]); apply no_any_kernel|]. split; [exact V1|]. split; [exact R1|exact R2].
Qed.
