(** C92: what valid() of a deque certifies, in any state of the deque's memory - reached by calls or not *)
From Verif Require Import Base Conc SlotModel SlotSpec Lifetime VectorModel VectorSpec VectorProofs DequeModel DequeSpec DequeProofs VValidProps.

(** slot of element [n] of the deque: operator[] wraps around the end of the storage *)
Definition slot_nr {T} (d : deq T) (n : nat) : nat := ((Z.to_nat (d_begin d) + n) mod length (v_occ (d_v d)))%nat.
(** _begin is a position, _end lies size() positions behind it, and going round from _begin no empty slot precedes an occupied one *)
Definition ring_ok {T} (d : deq T) : Prop :=
  0 <= d_begin d < d_capacity d /\ d_end d = Z.of_nat (slot_nr d (Z.to_nat (d_size d))) /\ length (d_indices d) = length (v_occ (d_v d)) /\
  forall i j, (i < j < length (v_occ (d_v d)))%nat -> v_occ (d_v d) !! slot_nr d j = Some true -> v_occ (d_v d) !! slot_nr d i = Some true.

Lemma ring_pos_mod cap b i : (b < cap)%nat -> (i <= cap)%nat -> ring_pos cap b i = ((b + i) mod cap)%nat.
Proof.
  intros Hb Hi. unfold ring_pos. destruct (Nat.ltb_spec (b + i) cap).
  - symmetry. apply Nat.mod_small. lia.
  - apply (Nat.mod_unique _ _ 1); lia.
Qed.
Lemma bcount_perm (l l' : list bool) : l ≡ₚ l' -> bcount l = bcount l'.
Proof. intros H. unfold bcount. f_equal. apply Permutation_length. rewrite H. reflexivity. Qed.
Lemma read_all {A} (dflt : A) (l : list A) : ((fun p => default dflt (l !! p)) <$> seq 0 (length l)) = l.
Proof.
  apply list_eq. intros i. rewrite list_lookup_fmap. destruct (decide (i < length l)%nat) as [H|H].
  - rewrite lookup_seq_lt by exact H. cbn. destruct (lookup_lt_is_Some_2 l i H) as [x ->]. reflexivity.
  - rewrite lookup_seq_ge by lia. cbn. symmetry. apply lookup_ge_None. lia.
Qed.
Lemma ring_perm cap b : (b < cap)%nat -> ring_pos cap b <$> seq 0 cap ≡ₚ seq 0 cap.
Proof.
  intros Hb. rewrite <- (positions cap b) by (exact Hb || lia). 
  assert (E : forall l : list nat, (forall p, p ∈ l -> (p < cap)%nat) -> filter (fun p => (ring_dist cap b p < cap)%nat) l = l).
  { induction l as [|p l IH]; intros H; [reflexivity|]. rewrite filter_cons_True; [f_equal; apply IH; intros q Hq; apply H; right; exact Hq|].
    apply dist_lt; [exact Hb|]. apply H. left. }
  rewrite E; [reflexivity|]. intros p Hp. apply elem_of_seq in Hp. lia.
Qed.

(** _partial: valid() looks neither at _begin and _end nor at the order of the slots (C92_begin_refuted, C92_end_refuted).  With these in
    order, a deque on which valid() returns true is the list of its size() elements, and every sequence of calls within the contract
    that follows gives the results of that list (spec_drun, DequeSpec.v) and keeps valid() true. *)
Theorem C92_deque_valid_partial : forall (T : Type) (opt : bool) (ord : nat -> list nat), (forall n, ord n ≡ₚ seq 0 n) ->
  forall d : deq T, slots_ok opt (d_v d) -> ring_ok d -> d_valid d = true ->
  exists l, d_size d = Z.of_nat (length l) /\ (forall n x, l !! n = Some x -> v_data (d_v d) !! slot_nr d n = Some (Some x)) /\
  (forall n x, l !! n = Some x -> d_begin d + Z.of_nat n <= INT_MAX -> d_index d (Z.of_nat n) = Ret x) /\
  forall ops, (forall op, op ∈ ops -> dop_fits (d_capacity d) op) -> forall l' rs, spec_drun (d_capacity d) l ops = Ret (l', rs) ->
  exists d' rs', deq_run opt ord d ops = Ret (d', rs') /\ Forall2 same_result rs' rs /\ d_valid d' = true /\ d_size d' = Z.of_nat (length l').
Proof.
  intros T opt ord Hord d (Hc & Ld & Ll & Hslot & Hlife) (Hb & He & Li & Hg) Hv. unfold d_valid in Hv. set (v := d_v d) in *. set (cap := length (v_occ v)) in *.
  assert (Hcap : 0 < Z.of_nat cap <= INT_MAX) by exact Hc. change (d_capacity d) with (Z.of_nat cap) in *. change (d_size d) with (v_size v) in *.
  unfold v_valid in Hv. change (v_capacity v) with (Z.of_nat cap) in Hv. rewrite (proj2 (Z.eqb_neq _ _)) in Hv by lia. apply andb_true_iff in Hv as [Hv Hlk]. apply andb_true_iff in Hv as [Hr Hcnt]. apply andb_true_iff in Hr as [Hr1 Hr2].
  apply Z.leb_le in Hr1, Hr2. apply Z.eqb_eq in Hcnt, Hlk. assert (Es : v_size v = v_n v) by (unfold v_size, clamp_size; change (v_capacity v) with (Z.of_nat cap); rewrite (proj2 (Z.ltb_ge _ _)), (proj2 (Z.ltb_ge _ _)) by lia; reflexivity).
  rewrite Es in Hcnt, He. set (b := Z.to_nat (d_begin d)) in *. assert (Hbn : (b < cap)%nat) by lia. set (k := Z.to_nat (v_n v)) in *. assert (Hk : (k <= cap)%nat) by lia.
  assert (Sl : forall i, (i <= cap)%nat -> slot_nr d i = ring_pos cap b i) by (intros i Hi; symmetry; apply ring_pos_mod; [exact Hbn|exact Hi]).
  (* the two arrays, read from _begin on *)
  set (occ := (fun p => default false (v_occ v !! p)) <$> (ring_pos cap b <$> seq 0 cap)).
  set (data := (fun p => default None (v_data v !! p)) <$> (ring_pos cap b <$> seq 0 cap)).
  assert (Lo : length occ = cap) by (unfold occ; rewrite !fmap_length, seq_length; reflexivity).
  assert (Ldd : length data = cap) by (unfold data; rewrite !fmap_length, seq_length; reflexivity).
  assert (Oi : forall i, (i < cap)%nat -> occ !! i = v_occ v !! ring_pos cap b i).
  { intros i Hi. unfold occ. rewrite !list_lookup_fmap, lookup_seq_lt by exact Hi. cbn. destruct (lookup_lt_is_Some_2 (v_occ v) (ring_pos cap b i)) as [x ->]; [fold cap; apply ring_pos_lt; lia|reflexivity]. }
  assert (Di : forall i, (i < cap)%nat -> data !! i = v_data v !! ring_pos cap b i).
  { intros i Hi. unfold data. rewrite !list_lookup_fmap, lookup_seq_lt by exact Hi. cbn. destruct (lookup_lt_is_Some_2 (v_data v) (ring_pos cap b i)) as [x ->]; [rewrite Ld; apply ring_pos_lt; lia|reflexivity]. }
  assert (Bc : bcount occ = v_n v).
  { rewrite Hcnt. apply bcount_perm. unfold occ. rewrite (ring_perm cap b Hbn). unfold cap. rewrite read_all. reflexivity. }
  assert (Hocc : forall i, (i < cap)%nat -> occ !! i = Some (bool_decide (i < k)%nat)).
  { intros i Hi. unfold k. rewrite <- Bc. apply prefix_of; [|rewrite Lo; exact Hi]. intros i' j Hij Hj. pose proof Hj as Lj. apply lookup_lt_Some in Lj. rewrite Lo in Lj.
    rewrite Oi in Hj |- * by lia. rewrite <- Sl in Hj |- * by lia. eapply Hg; [|exact Hj]. lia. }
  destruct (values_of k data) as (l & L & Hl); [lia| |].
  { intros i Hi. rewrite Ldd in Hi. rewrite Di by exact Hi. pose proof (Hocc i Hi) as H. rewrite Oi in H by exact Hi. destruct (Hslot _ _ H) as (o & E & I). exists o. auto. }
  assert (R : drep opt cap b d l).
  { split; try assumption; fold v.
    - rewrite L. lia.
    - lia.
    - lia.
    - rewrite He, L. f_equal. apply Sl. exact Hk.
    - reflexivity.
    - rewrite (all_false _ Hlk), Ll. reflexivity.
    - intros p Hp. pose proof (dist_lt cap b Hbn p Hp) as Hd. rewrite <- (pos_dist cap b Hbn p Hp) at 1. rewrite <- Di by exact Hd. apply Hl. lia.
    - intros p Hp. pose proof (dist_lt cap b Hbn p Hp) as Hd. rewrite <- (pos_dist cap b Hbn p Hp) at 1. rewrite <- Oi by exact Hd. rewrite L. apply Hocc. exact Hd.
    - intros Ho. destruct (Hlife Ho) as [H1 H2]. split; [exact H1|]. intros p. rewrite L.
      assert (Hp : (p < cap)%nat -> v_occ v !! p = Some (bool_decide (ring_dist cap b p < k)%nat)).
      { intros Hp. pose proof (dist_lt cap b Hbn p Hp) as Hd. rewrite <- (pos_dist cap b Hbn p Hp) at 1. rewrite <- Oi by exact Hd. apply Hocc. exact Hd. }
      destruct (live_after nothing (slot_events (v_ev v)) (InSlot p)) eqn:E.
      + apply H2 in E. pose proof E as Lp. apply lookup_lt_Some in Lp. rewrite (Hp Lp) in E. injection E as E. apply bool_decide_eq_true in E. symmetry. apply bool_decide_eq_true. split; assumption.
      + symmetry. apply bool_decide_eq_false. intros [Hp1 Hp2]. assert (C : v_occ v !! p = Some true) by (rewrite Hp by exact Hp1; f_equal; apply bool_decide_eq_true; exact Hp2). apply H2 in C. congruence. }
  exists l. split; [rewrite Es, L; lia|]. split.
  { intros n x Hx. pose proof Hx as Ln. apply lookup_lt_Some in Ln. rewrite Sl by lia. rewrite <- Di by lia. rewrite Hl by lia. rewrite Hx. reflexivity. }
  split.
  { intros n x Hx Hn. eapply (index_drep opt ord Hord cap Hcap b d l); [exact R|lia|lia|]. rewrite Nat2Z.id. exact Hx. }
  intros ops Hops l' rs Hs. destruct (run_drep opt ord Hord cap Hcap ops _ _ _ _ _ R Hops Hs) as (b' & d' & rs' & E & Hrs & R'). exists d', rs'. split; [exact E|]. split; [exact Hrs|].
  split; [exact (drep_valid opt ord Hord cap Hcap _ _ _ R')|exact (drep_size opt ord Hord cap _ _ _ R')].
Qed.
Print Assumptions C92_deque_valid_partial.

(** a deque of capacity 3 with two elements that wrap around the end of the storage *)
Definition around (b e : Z) : deq Z := {| d_v := {| v_n := 2; v_data := [Some 6; None; Some 5]; v_occ := [true; false; true]; v_locks := replicate 3 false; v_ev := [] |}; d_begin := b; d_end := e; d_indices := [0; 0; 0] |}.
Lemma around_slots : forall b e, slots_ok true (d_v (around b e)).
Proof.
  intros b e. split; [vm_compute; split; [reflexivity|discriminate]|]. split; [reflexivity|]. split; [reflexivity|]. split; [|discriminate].
  intros p x. do 3 (destruct p as [|p]; [cbn; intros [= <-]; eexists; split; [reflexivity|]; split; intros H; congruence|]). discriminate.
Qed.
Example C92_ex : slots_ok true (d_v (around 2 1)) /\ ring_ok (around 2 1) /\ d_valid (around 2 1) = true /\
  exists d', deq_run true (fun n => seq 0 n) (around 2 1) [DPushBack 7; DPopFront; DPopFront; DSize] = Ret (d', [RBool true; ROpt (Some 5); ROpt (Some 6); RNum 1]).
Proof.
  split; [apply around_slots|]. split; [|split; [reflexivity|eexists; vm_compute; reflexivity]].
  split; [vm_compute; split; [discriminate|reflexivity]|]. split; [reflexivity|]. split; [reflexivity|].
  intros i j [Hij Hj] Ho. cbn in Hj. do 3 (destruct j as [|j]; [do 3 (destruct i as [|i]; [try lia; try discriminate; reflexivity|]); lia|]). lia.
Qed.

(** what is missing: with _begin at the empty slot valid() returns true, but front() reads the empty slot and pop_front() waits for ever *)
Theorem C92_begin_refuted : exists d : deq Z, slots_ok true (d_v d) /\ d_valid d = true /\ d_size d = 2 /\ d_front d = UB /\ d_pop_front d = Hang.
Proof. exists (around 1 1). split; [apply around_slots|]. repeat split; reflexivity. Qed.
Print Assumptions C92_begin_refuted.
(** and with _end at an occupied slot the deque is not full(), but push_back() waits for ever *)
Theorem C92_end_refuted : exists d : deq Z, slots_ok true (d_v d) /\ d_valid d = true /\ d_full d = false /\ d_front d = Ret 5 /\ forall x, d_push_back d x = Hang.
Proof. exists (around 2 0). split; [apply around_slots|]. repeat split; reflexivity. Qed.
Print Assumptions C92_end_refuted.

Lemma drep_slots {T} (opt : bool) n b (d : deq T) l : 0 < Z.of_nat n <= INT_MAX -> (forall k, seq 0 k ≡ₚ seq 0 k) -> drep opt n b d l -> slots_ok opt (d_v d) /\ ring_ok d /\ d_valid d = true.
Proof.
  intros Hcap Hord R.
  pose proof (e_le _ _ _ _ _ R) as Hle. pose proof (e_b _ _ _ _ _ R) as Hb. pose proof (e_lo _ _ _ _ _ R) as Lo.
  assert (Occ : forall p x, v_occ (d_v d) !! p = Some x -> (p < n)%nat /\ x = bool_decide (ring_dist n b p < length l)%nat).
  { intros p x Hp. pose proof Hp as Lp. apply lookup_lt_Some in Lp. rewrite Lo in Lp. rewrite (e_occ _ _ _ _ _ R) in Hp by exact Lp. injection Hp as <-. auto. }
  assert (Sl : forall i, (i <= n)%nat -> slot_nr d i = ring_pos n b i) by (intros i Hi; unfold slot_nr; rewrite Lo, (e_begin _ _ _ _ _ R), Nat2Z.id; symmetry; apply ring_pos_mod; assumption).
  split; [|split; [|exact (drep_valid opt (seq 0) Hord n Hcap _ _ _ R)]].
  - split; [unfold v_capacity; rewrite Lo; exact Hcap|]. split; [rewrite (e_ld _ _ _ _ _ R), Lo; reflexivity|].
    split; [rewrite (e_locks _ _ _ _ _ R), replicate_length, Lo; reflexivity|]. split.
    + intros p x Hp. destruct (Occ _ _ Hp) as [Lp ->]. exists (l !! ring_dist n b p). split; [apply (e_data _ _ _ _ _ R); exact Lp|]. rewrite bool_decide_eq_true. rewrite <- (lookup_lt_is_Some l), <- not_eq_None_Some. reflexivity.
    + intros Ho. destruct (e_life _ _ _ _ _ R Ho) as [H1 H2]. split; [exact H1|]. intros p. rewrite H2, bool_decide_eq_true. split.
      * intros [Lp Hp]. rewrite (e_occ _ _ _ _ _ R) by exact Lp. f_equal. apply bool_decide_eq_true. exact Hp.
      * intros Hp. destruct (Occ _ _ Hp) as [Lp H]. split; [exact Lp|]. symmetry in H. apply bool_decide_eq_true in H. exact H.
  - split; [rewrite (e_begin _ _ _ _ _ R), (drep_cap opt n _ _ _ R); lia|].
    split; [rewrite (e_end _ _ _ _ _ R), (drep_size opt (seq 0) Hord n _ _ _ R), Nat2Z.id, Sl by exact Hle; reflexivity|].
    split; [rewrite (e_li _ _ _ _ _ R), Lo; reflexivity|]. rewrite Lo. intros i j [Hij Hj] Ho. rewrite Sl in Ho |- * by lia. destruct (Occ _ _ Ho) as [_ H].
    rewrite dist_pos in H by assumption. symmetry in H. apply bool_decide_eq_true in H. rewrite (e_occ _ _ _ _ _ R) by (apply ring_pos_lt; lia).
    rewrite dist_pos by lia. f_equal. apply bool_decide_eq_true. lia.
Qed.
(** ** every deque in use is one of C92: after createDeviceObject and any sequence of calls within the contract *)
Theorem C92_in_use : forall (T : Type) (opt : bool) (ord : nat -> list nat), (forall n, ord n ≡ₚ seq 0 n) ->
  forall cap, 0 < cap <= INT_MAX -> forall junk (d0 : deq T) ops l rs d rs', (forall op, op ∈ ops -> dop_fits cap op) -> spec_drun cap [] ops = Ret (l, rs) ->
  deq_create junk cap = Ret d0 -> deq_run opt ord d0 ops = Ret (d, rs') -> slots_ok opt (d_v d) /\ ring_ok d /\ d_valid d = true.
Proof.
  intros T opt ord Hord cap Hcap junk d0 ops l rs d rs' Hfit Hs E0 E.
  destruct (deq_run_drep opt ord Hord junk cap ops l rs Hcap Hfit Hs) as (w0 & b & w & ws & Ew0 & Ew & _ & R). rewrite E0 in Ew0. injection Ew0 as <-. rewrite E in Ew. injection Ew as <- <-.
  assert (exists n, cap = Z.of_nat n) as [n ->] by (exists (Z.to_nat cap); lia). rewrite Nat2Z.id in R.
  exact (drep_slots opt n b d l Hcap (fun k => Permutation_refl _) R).
Qed.
Print Assumptions C92_in_use.
