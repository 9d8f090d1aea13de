(** C91: what valid() of a vector certifies, in any state of the vector's memory - reached by calls or not *)
From Verif Require Import Base Conc SlotModel SlotSpec Lifetime VectorModel VectorSpec VectorProofs.

(** the arrays have one length; a slot holds an element exactly if its bit in _occupied is set *)
Definition slots_ok {T} (opt : bool) (v : vec T) : Prop :=
  0 < v_capacity v <= INT_MAX /\ length (v_data v) = length (v_occ v) /\ length (v_locks v) = length (v_occ v) /\
  (forall p b, v_occ v !! p = Some b -> exists o, v_data v !! p = Some o /\ (b = true <-> o <> None)) /\
  (opt = false -> lifetime_ok nothing (slot_events (v_ev v)) /\ forall p, live_after nothing (slot_events (v_ev v)) (InSlot p) = true <-> v_occ v !! p = Some true).
(** no empty slot before an occupied one *)
Definition no_gap {T} (v : vec T) : Prop := forall i j, (i < j)%nat -> v_occ v !! j = Some true -> v_occ v !! i = Some true.

Lemma prefix_of (occ : list bool) : (forall i j, (i < j)%nat -> occ !! j = Some true -> occ !! i = Some true) ->
  forall p, (p < length occ)%nat -> occ !! p = Some (bool_decide (p < Z.to_nat (bcount occ))%nat).
Proof.
  induction occ as [|b occ IH]; intros H p Hp; [cbn in Hp; lia|]. destruct b.
  - assert (E : bcount (true :: occ) = 1 + bcount occ) by (unfold bcount; rewrite filter_cons_True by reflexivity; cbn [length]; lia).
    assert (0 <= bcount occ) by (unfold bcount; lia). rewrite E. destruct p as [|p].
    + rewrite bool_decide_eq_true_2 by lia. reflexivity.
    + assert (Hp' : (p < length occ)%nat) by (cbn in Hp; lia).
      assert (IH' := IH (fun i j Hij Hj => H (S i) (S j) ltac:(lia) Hj) p Hp'). change ((true :: occ) !! S p) with (occ !! p). rewrite IH'. f_equal. apply bool_decide_ext. lia.
  - assert (A : forall q, q ∈ occ -> q = false).
    { intros q Hq. apply elem_of_list_lookup in Hq as [j Hj]. destruct q; [|reflexivity]. specialize (H 0%nat (S j) ltac:(lia) Hj). discriminate. }
    assert (E : bcount (false :: occ) = 0).
    { unfold bcount. rewrite filter_cons_False by discriminate. clear - A. induction occ as [|x occ IH]; [reflexivity|]. rewrite (A x) by left. rewrite filter_cons_False by discriminate. apply IH. intros q Hq. apply A. right. exact Hq. }
    rewrite E. rewrite bool_decide_eq_false_2 by lia. destruct p as [|p]; [reflexivity|]. change ((false :: occ) !! S p) with (occ !! p). destruct (lookup_lt_is_Some_2 occ p) as [q Hq]; [cbn in Hp; lia|]. pose proof (A q ltac:(eapply elem_of_list_lookup_2; exact Hq)). cbn in Hq. subst q. exact Hq.
Qed.
Lemma all_false (l : list bool) : bcount l = 0 -> l = replicate (length l) false.
Proof.
  induction l as [|[] l IH]; intros H; [reflexivity| |].
  - unfold bcount in H. rewrite filter_cons_True in H by reflexivity. cbn [length] in H. lia.
  - cbn. f_equal. apply IH. exact H.
Qed.
Lemma values_of {T} (k : nat) : forall d : list (option T), (k <= length d)%nat -> (forall p, (p < length d)%nat -> exists o, d !! p = Some o /\ (bool_decide (p < k)%nat = true <-> o <> None)) ->
  exists l : list T, length l = k /\ forall p, (p < length d)%nat -> d !! p = Some (l !! p).
Proof.
  induction k as [|k IH]; intros d Hk H.
  - exists []. split; [reflexivity|]. intros p Hp. destruct (H p Hp) as (o & E & I). rewrite E. destruct o as [x|]; [|reflexivity]. exfalso. rewrite bool_decide_eq_false_2 in I by lia. assert (false = true) by (apply I; discriminate). discriminate.
  - destruct d as [|o d]; [cbn in Hk; lia|]. destruct (H 0%nat ltac:(cbn; lia)) as (o' & E & I). cbn in E. injection E as <-. rewrite bool_decide_eq_true_2 in I by lia. destruct o as [x|]; [|destruct (proj1 I eq_refl); reflexivity].
    destruct (IH d) as (l & L & Hl); [cbn in Hk; lia| |].
    + intros p Hp. destruct (H (S p) ltac:(cbn; lia)) as (o & E & I'). exists o. split; [exact E|]. rewrite <- I'. rewrite !bool_decide_eq_true. lia.
    + exists (x :: l). split; [cbn; lia|]. intros [|p] Hp; [reflexivity|]. cbn. apply Hl. cbn in Hp. lia.
Qed.

(** _partial: valid() does not look for gaps (C91_gap_refuted).  Without one, a vector on which valid() returns true is the list of
    its size() elements, and every sequence of calls that follows gives the results of that list (spec_vrun, VectorSpec.v; UB: a call outside its
    contract) and keeps valid() true. *)
Theorem C91_vector_valid_partial : forall (T : Type) (opt : bool) (ord : nat -> list nat), (forall n, ord n ≡ₚ seq 0 n) ->
  forall v : vec T, slots_ok opt v -> no_gap v -> v_valid v = true ->
  exists l, v_range v = Ret l /\ v_size v = Z.of_nat (length l) /\ (forall n x, l !! n = Some x -> v_at v (Z.of_nat n) = Ret x) /\
  forall ops, (forall op, op ∈ ops -> op_fits (v_capacity v) op) ->
  match spec_vrun (v_capacity v) l ops with
  | Ret (l', rs) => exists v', vec_run opt ord v ops = Ret (v', rs) /\ v_valid v' = true /\ v_range v' = Ret l'
  | UB => vec_run opt ord v ops = UB
  | Hang => False
  end.
Proof.
  intros T opt ord Hord v (Hc & Ld & Ll & Hslot & Hlife) Hg Hv. set (cap := length (v_occ v)). assert (Hcap : 0 < Z.of_nat cap <= INT_MAX) by exact Hc.
  unfold v_valid in Hv. rewrite (proj2 (Z.eqb_neq _ _)) in Hv by lia. apply andb_true_iff in Hv as [Hv Hlk]. apply andb_true_iff in Hv as [Hr Hcnt]. apply andb_true_iff in Hr as [Hr1 Hr2].
  apply Z.leb_le in Hr1, Hr2. apply Z.eqb_eq in Hcnt, Hlk. assert (Es : v_size v = v_n v) by (unfold v_size, clamp_size; rewrite (proj2 (Z.ltb_ge _ _)), (proj2 (Z.ltb_ge _ _)) by lia; reflexivity).
  rewrite Es in Hcnt. set (k := Z.to_nat (v_n v)). assert (Hk : (k <= cap)%nat) by (unfold k, cap; unfold v_capacity in Hr2; lia).
  assert (Hocc : forall p, (p < cap)%nat -> v_occ v !! p = Some (bool_decide (p < k)%nat)) by (intros p Hp; unfold k; rewrite Hcnt; apply prefix_of; [exact Hg|exact Hp]).
  destruct (values_of k (v_data v)) as (l & L & Hl); [fold cap in Ld; lia| |].
  { intros p Hp. fold cap in Ld. assert (Hp' : (p < cap)%nat) by lia. destruct (Hslot p _ (Hocc p Hp')) as (o & E & I). exists o. auto. }
  assert (R : vrep opt cap v l).
  { split; try assumption; fold cap in Ld, Ll.
    - unfold k in L. lia.
    - lia.
    - reflexivity.
    - rewrite (all_false _ Hlk), Ll. reflexivity.
    - intros p Hp. apply Hl. lia.
    - rewrite L. exact Hocc.
    - intros Ho. destruct (Hlife Ho) as [H1 H2]. split; [exact H1|]. intros p. rewrite L. destruct (live_after nothing (slot_events (v_ev v)) (InSlot p)) eqn:E.
      + apply H2 in E. pose proof E as Lp. apply lookup_lt_Some in Lp. rewrite (Hocc p Lp) in E. injection E as E. symmetry. exact E.
      + symmetry. apply bool_decide_eq_false. intros Hp. assert (C : v_occ v !! p = Some true) by (rewrite Hocc by lia; f_equal; apply bool_decide_eq_true; exact Hp). apply H2 in C. congruence. }
  assert (Hrange : forall (w : vec T) m, vrep opt cap w m -> v_range w = Ret m).
  { intros w m Rw. unfold v_range. rewrite (rep_size _ ord Hord _ _ _ Rw), Nat2Z.id. rewrite (mapM_rep ord Hord cap m); [reflexivity|rewrite (r_ld _ _ _ _ Rw); apply Rw|].
    intros p Hp. apply (r_data _ _ _ _ Rw). pose proof (r_le _ _ _ _ Rw). lia. }
  exists l. split; [apply Hrange; exact R|]. split; [apply (rep_size _ ord Hord _ _ _ R)|]. split.
  { intros n x Hx. pose proof Hx as Ln. apply lookup_lt_Some in Ln. unfold v_at. rewrite (rep_size _ ord Hord _ _ _ R). rewrite (proj2 (Z.leb_le _ _)), (proj2 (Z.ltb_lt _ _)) by lia.
    unfold v_occupied. change (v_capacity v) with (Z.of_nat cap). rewrite (proj2 (Z.leb_le _ _)), (proj2 (Z.ltb_lt _ _)), Nat2Z.id by lia. cbn [andb]. rewrite Hocc by lia. rewrite bool_decide_eq_true_2 by lia. cbn [obind].
    unfold v_index. rewrite (proj2 (Z.leb_le _ _)), Nat2Z.id, Hl, Hx by lia. reflexivity. }
  intros ops Hops. pose proof (run_rep opt ord Hord cap Hcap ops v l R Hops) as H. change (v_capacity v) with (Z.of_nat cap). destruct (spec_vrun (Z.of_nat cap) l ops) as [[l' rs]| |]; [|exact H|exact H].
  destruct H as (v' & E & R'). exists v'. split; [exact E|]. split; [exact (rep_valid opt ord Hord cap Hcap _ _ R')|apply Hrange; exact R'].
Qed.
Print Assumptions C91_vector_valid_partial.

(** a vector of capacity 3 with two elements *)
Definition two_of_three : vec Z := {| v_n := 2; v_data := [Some 5; Some 6; None]; v_occ := [true; true; false]; v_locks := replicate 3 false; v_ev := [] |}.
Example C91_ex : slots_ok true two_of_three /\ no_gap two_of_three /\ v_valid two_of_three = true /\
  exists v', vec_run true (fun n => seq 0 n) two_of_three [VPush 7; VPush 8; VPop; VSize] = Ret (v', [RBool true; RBool false; ROpt (Some 7); RNum 2]).
Proof.
  split; [|split; [|split; [reflexivity|eexists; vm_compute; reflexivity]]].
  - split; [vm_compute; split; [reflexivity|discriminate]|]. split; [reflexivity|]. split; [reflexivity|]. split; [|discriminate].
    intros p b. do 3 (destruct p as [|p]; [cbn; intros [= <-]; eexists; split; [reflexivity|]; split; intros H; congruence|]). discriminate.
  - intros i j Hij Hj. do 3 (destruct j as [|j]; [do 3 (destruct i as [|i]; [try lia; try discriminate; reflexivity|]); lia|]). discriminate.
Qed.

(** what is missing: with an element behind an empty slot valid() returns true, but pop_back() waits for ever, and device_range() reads the empty slot *)
Theorem C91_gap_refuted : exists v : vec Z, slots_ok true v /\ v_valid v = true /\ v_size v = 1 /\ v_pop_back v = Hang /\ v_range v = UB.
Proof.
  exists {| v_n := 1; v_data := [None; Some 5]; v_occ := [false; true]; v_locks := replicate 2 false; v_ev := [] |}. split; [|repeat split; reflexivity].
  split; [vm_compute; split; [reflexivity|discriminate]|]. split; [reflexivity|]. split; [reflexivity|]. split; [|discriminate].
  intros p b. do 2 (destruct p as [|p]; [cbn; intros [= <-]; eexists; split; [reflexivity|]; split; intros H; congruence|]). discriminate.
Qed.
Print Assumptions C91_gap_refuted.

(** ** every vector in use is one of C91: after createDeviceObject and any sequence of calls *)
Lemma rep_slots {T} (opt : bool) cap (v : vec T) l : 0 < Z.of_nat cap <= INT_MAX -> vrep opt cap v l -> slots_ok opt v /\ no_gap v.
Proof.
  intros Hcap R. pose proof (r_le _ _ _ _ R) as Hle. split.
  - split; [unfold v_capacity; rewrite (r_lo _ _ _ _ R); exact Hcap|]. split; [rewrite (r_ld _ _ _ _ R), (r_lo _ _ _ _ R); reflexivity|].
    split; [rewrite (r_locks _ _ _ _ R), replicate_length, (r_lo _ _ _ _ R); reflexivity|]. split.
    + intros p b Hp. pose proof Hp as Lp. apply lookup_lt_Some in Lp. rewrite (r_lo _ _ _ _ R) in Lp. rewrite (r_occ _ _ _ _ R) in Hp by exact Lp. injection Hp as <-.
      exists (l !! p). split; [apply (r_data _ _ _ _ R); exact Lp|]. rewrite bool_decide_eq_true. rewrite <- (lookup_lt_is_Some l p), <- not_eq_None_Some. reflexivity.
    + intros Ho. destruct (r_life _ _ _ _ R Ho) as [H1 H2]. split; [exact H1|]. intros p. rewrite H2, bool_decide_eq_true. split.
      * intros Hp. rewrite (r_occ _ _ _ _ R) by lia. f_equal. apply bool_decide_eq_true. exact Hp.
      * intros Hp. pose proof Hp as Lp. apply lookup_lt_Some in Lp. rewrite (r_lo _ _ _ _ R) in Lp. rewrite (r_occ _ _ _ _ R) in Hp by exact Lp. injection Hp as Hp. apply bool_decide_eq_true in Hp. exact Hp.
  - intros i j Hij Hj. pose proof Hj as Lj. apply lookup_lt_Some in Lj. rewrite (r_lo _ _ _ _ R) in Lj. rewrite (r_occ _ _ _ _ R) in Hj |- * by lia.
    injection Hj as Hj. apply bool_decide_eq_true in Hj. f_equal. apply bool_decide_eq_true. lia.
Qed.
Theorem C91_in_use : forall (T : Type) (opt : bool) (ord : nat -> list nat), (forall n, ord n ≡ₚ seq 0 n) ->
  forall cap, 0 < cap <= INT_MAX -> forall (v0 : vec T) ops v rs, (forall op, op ∈ ops -> op_fits cap op) ->
  vec_create cap = Ret v0 -> vec_run opt ord v0 ops = Ret (v, rs) -> slots_ok opt v /\ no_gap v /\ v_valid v = true.
Proof.
  intros T opt ord Hord cap Hcap v0 ops v rs Hfit E0 E. assert (exists n, cap = Z.of_nat n) as [n ->] by (exists (Z.to_nat cap); lia).
  destruct (rep_create (T:=T) opt ord Hord n Hcap ltac:(lia)) as (w & Ew & R). rewrite E0 in Ew. injection Ew as <-.
  pose proof (run_rep opt ord Hord n Hcap ops v0 [] R Hfit) as H. destruct (spec_vrun (Z.of_nat n) [] ops) as [[l' rs']| |]; [|congruence|contradiction].
  destruct H as (v' & E' & R'). rewrite E in E'. injection E' as <- <-. destruct (rep_slots opt n v l' Hcap R') as [H1 H2]. split; [exact H1|]. split; [exact H2|exact (rep_valid opt ord Hord n Hcap _ _ R')].
Qed.
Print Assumptions C91_in_use.
