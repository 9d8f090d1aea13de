From Verif Require Import Base Conc BitModel AtomicModel SlotModel SlotSpec Lifetime VectorModel VectorSpec VectorProofs DequeModel DequeSpec.

Local Arguments slot_events : simpl never.

(** ** ring arithmetic *)
Definition ring_pos (cap b i : nat) : nat := if (b + i <? cap)%nat then (b + i)%nat else (b + i - cap)%nat.

Lemma inc_mod_val cap v : 0 <= v < cap -> cap <= INT_MAX -> inc_mod cap v = if v + 1 =? cap then 0 else v + 1.
Proof.
  unfold inc_mod, INT_MAX. cbn [new_value]. unfold backend_inc_mod, wrap. intros H1 H2. rewrite (Z.mod_small (cap - 1)) by lia.
  destruct (cap - 1 <=? v) eqn:E; destruct (v + 1 =? cap) eqn:E2; try lia. all: apply Z.mod_small; lia.
Qed.
Lemma dec_mod_val cap v : 0 <= v < cap -> cap <= INT_MAX -> dec_mod cap v = dec_reconstruct cap v.
Proof.
  unfold dec_mod, dec_reconstruct, INT_MAX. cbn [new_value]. unfold backend_dec_mod, wrap. intros H1 H2. rewrite (Z.mod_small (cap - 1)) by lia.
  destruct (v =? 0) eqn:E; [reflexivity|]. rewrite (proj2 (Z.ltb_ge _ _)) by lia. cbn [orb]. apply Z.mod_small. lia.
Qed.

Ltac rl := unfold ring_dist, ring_pos, dec_reconstruct in *;
  repeat match goal with
  | |- context [(?a <? ?b)%nat] => destruct (Nat.ltb_spec a b)
  | |- context [(?a =? ?b)%nat] => destruct (Nat.eqb_spec a b)
  | |- context [?a =? ?b] => destruct (Z.eqb_spec a b)
  end; lia.

Section ring.
  Context (cap b : nat) (Hb : (b < cap)%nat).
  Lemma ring_pos_lt i : (i <= cap)%nat -> (ring_pos cap b i < cap)%nat.
  Proof. unfold ring_pos. destruct (b + i <? cap)%nat eqn:E; lia. Qed.
  Lemma dist_pos i : (i < cap)%nat -> ring_dist cap b (ring_pos cap b i) = i.
  Proof. unfold ring_pos, ring_dist. intros H. destruct (b + i <? cap)%nat eqn:E; destruct (_ <? b)%nat eqn:E2; lia. Qed.
  Lemma pos_dist p : (p < cap)%nat -> ring_pos cap b (ring_dist cap b p) = p.
  Proof. unfold ring_pos, ring_dist. intros H. destruct (p <? b)%nat eqn:E; destruct (_ <? cap)%nat eqn:E2; lia. Qed.
  Lemma dist_lt p : (p < cap)%nat -> (ring_dist cap b p < cap)%nat.
  Proof. unfold ring_dist. intros H. destruct (p <? b)%nat eqn:E; lia. Qed.
  Lemma positions n : (n <= cap)%nat -> filter (fun p => (ring_dist cap b p < n)%nat) (seq 0 cap) ≡ₚ ring_pos cap b <$> seq 0 n.
  Proof.
    intros Hn. apply NoDup_Permutation.
    - apply NoDup_filter, NoDup_seq.
    - apply NoDup_fmap_2_strong; [|apply NoDup_seq]. intros i j Hi Hj E. apply elem_of_seq in Hi, Hj.
      rewrite <- (dist_pos i), <- (dist_pos j) by lia. congruence.
    - intros p. rewrite elem_of_list_filter, elem_of_list_fmap, elem_of_seq. split.
      + intros [H1 H2]. exists (ring_dist cap b p). rewrite pos_dist by lia. split; [reflexivity|]. apply elem_of_seq. lia.
      + intros (i & -> & Hi). apply elem_of_seq in Hi. rewrite dist_pos by lia. pose proof (ring_pos_lt i). lia.
  Qed.
End ring.

Lemma bcount_positions (l : list bool) : bcount l = Z.of_nat (length (filter (fun p => l !! p = Some true) (seq 0 (length l)))).
Proof.
  unfold bcount. f_equal. induction l as [|x l IH] using rev_ind; [reflexivity|].
  rewrite filter_app, app_length. cbn [length]. rewrite app_length, seq_app. cbn [length seq Nat.add]. rewrite filter_app, app_length. f_equal.
  - rewrite IH. f_equal. apply list_filter_ext_in. intros p Hp. apply elem_of_seq in Hp. rewrite lookup_app_l by lia. reflexivity.
  - rewrite !filter_cons, lookup_app_r, Nat.sub_diag by lia. cbn [lookup list_lookup filter list_filter]. destruct x.
    + rewrite !decide_True by reflexivity. reflexivity.
    + rewrite !decide_False by discriminate. reflexivity.
Qed.
Lemma bcount_ring cap b n (l : list bool) : (b < cap)%nat -> (n <= cap)%nat -> length l = cap ->
  (forall p, (p < cap)%nat -> l !! p = Some (bool_decide (ring_dist cap b p < n)%nat)) -> bcount l = Z.of_nat n.
Proof.
  intros Hb Hn Hl H. rewrite bcount_positions, Hl. rewrite (list_filter_ext_in _ (fun p => (ring_dist cap b p < n)%nat)).
  - rewrite (positions cap b Hb n Hn), fmap_length, seq_length. reflexivity.
  - intros p Hp. apply elem_of_seq in Hp. rewrite H by lia. split.
    + intros E. injection E as E. apply bool_decide_eq_true in E. exact E.
    + intros E. f_equal. apply bool_decide_eq_true_2. exact E.
Qed.

Lemma mapM_perm {A B} (f : A -> option B) l1 l2 : l1 ≡ₚ l2 -> forall k1, mapM f l1 = Some k1 -> exists k2, mapM f l2 = Some k2 /\ k2 ≡ₚ k1.
Proof.
  induction 1 as [|x l1 l2 _ IH|x y l|l1 l2 l3 _ IH1 _ IH2]; intros k1 E.
  - exists k1. auto.
  - cbn in *. destruct (f x) as [a|]; [|discriminate]. cbn in *. destruct (mapM f l1) as [k|]; [|discriminate]. cbn in *. injection E as <-.
    destruct (IH k eq_refl) as (k2 & E2 & P). rewrite E2. cbn. eexists. split; [reflexivity|]. rewrite P. reflexivity.
  - cbn in *. destruct (f y) as [a|]; [|discriminate]. destruct (f x) as [c|]; [|discriminate]. cbn in *. destruct (mapM f l) as [k|]; [|discriminate]. cbn in *.
    injection E as <-. eexists. split; [reflexivity|]. apply Permutation_swap.
  - destruct (IH1 _ E) as (k2 & E2 & P2). destruct (IH2 _ E2) as (k3 & E3 & P3). exists k3. split; [exact E3|]. rewrite P3. exact P2.
Qed.

Definition occupied_slots {T} (cap b : nat) (l : list T) : list nat := filter (fun p => (ring_dist cap b p < length l)%nat) (seq 0 cap).
Lemma elem_occupied {T} cap b (l : list T) p : p ∈ occupied_slots cap b l <-> (p < cap)%nat /\ (ring_dist cap b p < length l)%nat.
Proof. unfold occupied_slots. rewrite elem_of_list_filter, elem_of_seq. lia. Qed.

Section seq.
  Context {T : Type} (opt : bool) (ord : nat -> list nat).
  Hypothesis Hord : forall n, ord n ≡ₚ seq 0 n.

  Record drep (cap b : nat) (d : deq T) (l : list T) : Prop := {
    e_n : v_n (d_v d) = Z.of_nat (length l);
    e_le : (length l <= cap)%nat;
    e_b : (b < cap)%nat;
    e_begin : d_begin d = Z.of_nat b;
    e_end : d_end d = Z.of_nat (ring_pos cap b (length l));
    e_ld : length (v_data (d_v d)) = cap;
    e_lo : length (v_occ (d_v d)) = cap;
    e_li : length (d_indices d) = cap;
    e_locks : v_locks (d_v d) = replicate cap false;
    e_data : forall p, (p < cap)%nat -> v_data (d_v d) !! p = Some (l !! ring_dist cap b p);
    e_occ : forall p, (p < cap)%nat -> v_occ (d_v d) !! p = Some (bool_decide (ring_dist cap b p < length l)%nat);
    e_life : opt = false -> lifetime_ok nothing (slot_events (v_ev (d_v d))) /\
       forall p, live_after nothing (slot_events (v_ev (d_v d))) (InSlot p) = bool_decide (p < cap /\ ring_dist cap b p < length l)%nat
  }.

  Section rep.
    Context (cap : nat) (Hcap : 0 < Z.of_nat cap <= INT_MAX).

    Lemma drep_cap b d l : drep cap b d l -> d_capacity d = Z.of_nat cap.
    Proof. intros R. unfold d_capacity, v_capacity. rewrite (e_lo _ _ _ _ R). reflexivity. Qed.
    Lemma drep_size b d l : drep cap b d l -> d_size d = Z.of_nat (length l).
    Proof.
      intros R. unfold d_size, v_size, clamp_size. change (v_capacity (d_v d)) with (d_capacity d). rewrite (drep_cap _ _ _ R), (e_n _ _ _ _ R). pose proof (e_le _ _ _ _ R).
      rewrite (proj2 (Z.ltb_ge _ 0)) by lia. rewrite (proj2 (Z.ltb_ge _ _)) by lia. reflexivity.
    Qed.
    Lemma drep_valid b d l : drep cap b d l -> d_valid d = true.
    Proof.
      intros R. unfold d_valid, v_valid. change (v_capacity (d_v d)) with (d_capacity d). change (v_size (d_v d)) with (d_size d).
      rewrite (drep_cap _ _ _ R), (drep_size _ _ _ R), (e_n _ _ _ _ R), (e_locks _ _ _ _ R), bcount_replicate_false.
      pose proof (e_le _ _ _ _ R).
      rewrite (bcount_ring cap b (length l)); [|apply R|lia|apply R|apply R].
      destruct (Z.of_nat cap =? 0) eqn:E; [reflexivity|]. lia.
    Qed.

    Lemma drep_create junk : exists d, deq_create (T:=T) junk (Z.of_nat cap) = Ret d /\ drep cap 0 d [].
    Proof.
      destruct (rep_create (T:=T) opt ord Hord cap Hcap ltac:(lia)) as (v & E & R). unfold deq_create. rewrite E. cbn [obind]. eexists. split; [reflexivity|].
      destruct R. assert (Hz : forall p, (p < cap)%nat -> ring_dist cap 0 p = p).
      { intros p Hp. unfold ring_dist. destruct (p <? 0)%nat eqn:E2; lia. }
      split; cbn [d_v d_begin d_end d_indices length]; auto; try lia.
      - unfold ring_pos. destruct (_ <? _)%nat eqn:E2; cbn [length]; lia.
      - rewrite take_length, app_length, replicate_length, Nat2Z.id. lia.
      - intros Ho. destruct (r_life Ho) as [L1 L2]. split; [exact L1|]. intros p. rewrite L2. apply bool_decide_ext. cbn. lia.
    Qed.

    Lemma drep_log b d l e : drep cap b d l -> is_slot_event e = false -> drep cap b (d_set_v d (v_log (d_v d) e)) l.
    Proof.
      intros R He. destruct R. split; cbn [d_set_v v_log d_v d_begin d_end d_indices v_n v_data v_occ v_locks v_ev]; auto.
      rewrite slot_events_app. assert (E : slot_events [e] = []) by (unfold slot_events; rewrite filter_cons, decide_False by congruence; reflexivity).
      rewrite E, app_nil_r. auto.
    Qed.

    (** pushing an element into the free slot p such that the new content is l' starting at b' *)
    Lemma slot_push_ok (v : vec T) p x : length (v_data v) = cap -> length (v_occ v) = cap -> v_locks v = replicate cap false -> (p < cap)%nat -> v_occ v !! p = Some false ->
      slot_push v (Z.of_nat p) x = Ret (v_set_occ (v_construct v p x) p true).
    Proof.
      intros H1 H2 H3 Hp Ho. unfold slot_push. rewrite Nat2Z.id, H3, lookup_replicate_2 by exact Hp. rewrite Ho. reflexivity.
    Qed.
    Lemma slot_pop_ok (v : vec T) p y : length (v_data v) = cap -> length (v_occ v) = cap -> v_locks v = replicate cap false -> (p < cap)%nat -> v_occ v !! p = Some true ->
      v_data v !! p = Some (Some y) ->
      slot_pop v (Z.of_nat p) = Ret (v_destroy (v_log (v_log (v_set_occ v p false) (EvRead (InSlot p))) (EvConstruct Result)) p, y).
    Proof.
      intros H1 H2 H3 Hp Ho Hd. unfold slot_pop. rewrite Nat2Z.id, H3, lookup_replicate_2 by exact Hp. rewrite Ho.
      change (v_data (v_set_occ v p false)) with (v_data v). rewrite Hd. reflexivity.
    Qed.

    (** the list seen from the front slot changes consistently *)
    Lemma push_state b b' d l l' p x : drep cap b d l -> (length l < cap)%nat -> (b' < cap)%nat -> (p < cap)%nat -> length l' = S (length l) ->
      ring_dist cap b p = length l \/ ring_dist cap b' p = 0%nat ->
      (forall q, (q < cap)%nat -> l' !! ring_dist cap b' q = if decide (q = p) then Some x else l !! ring_dist cap b q) ->
      v_occ (d_v d) !! p = Some false ->
      drep cap b' {| d_v := v_set_occ (v_construct (v_set_n (d_v d) (to_int32 (v_n (d_v d) + 1))) p x) p true; d_begin := Z.of_nat b';
                     d_end := Z.of_nat (ring_pos cap b' (length l')); d_indices := d_indices d |} l'.
    Proof.
      intros R Hlt Hb' Hp Hlen _ Hl' Hfree.
      assert (Hocc : forall q, (q < cap)%nat -> (ring_dist cap b' q < length l')%nat <-> q = p \/ (ring_dist cap b q < length l)%nat).
      { intros q Hq. specialize (Hl' q Hq). rewrite <- !lookup_lt_is_Some. rewrite Hl'. destruct (decide (q = p)) as [->|Hne]; [split; eauto|]. split; [auto|]. intros [E|E]; [contradiction|exact E]. }
      assert (Hnp : ~ (ring_dist cap b p < length l)%nat).
      { rewrite (e_occ _ _ _ _ R) in Hfree by exact Hp. injection Hfree as Hfree. apply bool_decide_eq_false in Hfree. exact Hfree. }
      split; cbn [d_v d_begin d_end d_indices v_set_occ v_construct v_set_n v_n v_data v_occ v_locks v_ev]; rewrite ?insert_length; try apply R; auto.
      - rewrite (e_n _ _ _ _ R), to_int32_id by (unfold INT_MAX in *; lia). lia.
      - lia.
      - intros q Hq. rewrite Hl' by exact Hq. destruct (decide (q = p)) as [->|Hne].
        + rewrite list_lookup_insert by (rewrite (e_ld _ _ _ _ R); exact Hp). reflexivity.
        + rewrite list_lookup_insert_ne by congruence. apply (e_data _ _ _ _ R). exact Hq.
      - intros q Hq. destruct (decide (q = p)) as [->|Hne].
        + rewrite list_lookup_insert by (rewrite (e_lo _ _ _ _ R); exact Hp). apply (f_equal Some). symmetry. apply bool_decide_eq_true_2. apply Hocc; auto.
        + rewrite list_lookup_insert_ne by congruence. rewrite (e_occ _ _ _ _ R) by exact Hq. apply (f_equal Some). apply bool_decide_ext. rewrite Hocc by exact Hq. tauto.
      - intros Ho. destruct (e_life _ _ _ _ R Ho) as [L1 L2]. rewrite slot_events_app. change (slot_events [EvConstruct (InSlot p)]) with [EvConstruct (InSlot p)]. split.
        + apply lifetime_ok_app. split; [exact L1|]. cbn. split; [|exact I]. rewrite L2. apply bool_decide_eq_false_2. tauto.
        + intros q. rewrite live_after_app. cbn. destruct (decide (InSlot q = InSlot p)) as [E|Hne].
          * injection E as ->. symmetry. apply bool_decide_eq_true_2. split; [exact Hp|]. apply Hocc; auto.
          * rewrite L2. apply bool_decide_ext. assert (q <> p) by congruence. split; intros [H1 H2]; (split; [exact H1|]); specialize (Hocc q H1); tauto.
    Qed.
    Lemma pop_state b b' d l l' p y : drep cap b d l -> (b' < cap)%nat -> (p < cap)%nat -> length l = S (length l') ->
      (forall q, (q < cap)%nat -> l' !! ring_dist cap b' q = if decide (q = p) then None else l !! ring_dist cap b q) ->
      l !! ring_dist cap b p = Some y ->
      drep cap b' {| d_v := v_destroy (v_log (v_log (v_set_occ (v_set_n (d_v d) (to_int32 (v_n (d_v d) - 1))) p false) (EvRead (InSlot p))) (EvConstruct Result)) p; d_begin := Z.of_nat b';
                     d_end := Z.of_nat (ring_pos cap b' (length l')); d_indices := d_indices d |} l'.
    Proof.
      intros R Hb' Hp Hlen Hl' Hy. pose proof (e_le _ _ _ _ R) as Hle.
      assert (Hocc : forall q, (q < cap)%nat -> (ring_dist cap b' q < length l')%nat <-> q <> p /\ (ring_dist cap b q < length l)%nat).
      { intros q Hq. specialize (Hl' q Hq). rewrite <- !lookup_lt_is_Some. rewrite Hl'. destruct (decide (q = p)) as [->|Hne]; [|tauto]. split; [intros H; apply is_Some_None in H; contradiction|tauto]. }
      assert (Hnp : (ring_dist cap b p < length l)%nat) by (eapply lookup_lt_Some; exact Hy).
      split; cbn [d_v d_begin d_end d_indices v_set_occ v_destroy v_log v_set_n v_n v_data v_occ v_locks v_ev]; rewrite ?insert_length; try apply R; auto.
      - rewrite (e_n _ _ _ _ R), to_int32_id by (unfold INT_MAX in *; lia). lia.
      - lia.
      - intros q Hq. rewrite Hl' by exact Hq. destruct (decide (q = p)) as [->|Hne].
        + rewrite list_lookup_insert by (rewrite (e_ld _ _ _ _ R); exact Hp). reflexivity.
        + rewrite list_lookup_insert_ne by congruence. apply (e_data _ _ _ _ R). exact Hq.
      - intros q Hq. destruct (decide (q = p)) as [->|Hne].
        + rewrite list_lookup_insert by (rewrite (e_lo _ _ _ _ R); exact Hp). apply (f_equal Some). symmetry. apply bool_decide_eq_false_2. rewrite Hocc by exact Hp. tauto.
        + rewrite list_lookup_insert_ne by congruence. rewrite (e_occ _ _ _ _ R) by exact Hq. apply (f_equal Some). apply bool_decide_ext. rewrite Hocc by exact Hq. tauto.
      - intros Ho. destruct (e_life _ _ _ _ R Ho) as [L1 L2]. rewrite <- !app_assoc, slot_events_app.
        match goal with |- context [slot_events (v_ev (d_v d)) ++ slot_events ?x] =>
          replace (slot_events x) with [EvRead (InSlot p); EvDestroy (InSlot p)] by reflexivity end.
        assert (Hlive : live_after nothing (slot_events (v_ev (d_v d))) (InSlot p) = true) by (rewrite L2; apply bool_decide_eq_true_2; auto).
        split.
        + apply lifetime_ok_app. split; [exact L1|]. cbn. rewrite Hlive. auto.
        + intros q. rewrite live_after_app. cbn. destruct (decide (InSlot q = InSlot p)) as [E|Hne].
          * injection E as ->. symmetry. apply bool_decide_eq_false_2. intros [H1 H2]. apply Hocc in H2; tauto.
          * rewrite L2. apply bool_decide_ext. assert (q <> p) by congruence. split; intros [H1 H2]; (split; [exact H1|]); specialize (Hocc q H1); tauto.
    Qed.

    Lemma full_iff b d l : drep cap b d l -> d_full d = (Z.of_nat (length l) =? Z.of_nat cap).
    Proof. intros R. unfold d_full, v_full. change (v_capacity (d_v d)) with (d_capacity d). change (v_size (d_v d)) with (d_size d). rewrite (drep_cap _ _ _ R), (drep_size _ _ _ R). reflexivity. Qed.
    Lemma empty_iff b d l : drep cap b d l -> d_empty d = (Z.of_nat (length l) =? 0).
    Proof. intros R. unfold d_empty, v_empty. change (v_size (d_v d)) with (d_size d). rewrite (drep_size _ _ _ R). reflexivity. Qed.

    Lemma push_back_drep b d l x : drep cap b d l ->
      exists d', d_push_back d x = Ret (d', bool_decide (length l < cap)%nat) /\ drep cap b d' (if decide (length l < cap)%nat then l ++ [x] else l).
    Proof.
      intros R. unfold d_push_back. rewrite (full_iff _ _ _ R). pose proof (e_le _ _ _ _ R) as Hle. pose proof (e_b _ _ _ _ R) as Hb.
      destruct (Z.of_nat (length l) =? Z.of_nat cap) eqn:Ef.
      - exists d. rewrite bool_decide_eq_false_2 by lia. rewrite decide_False by lia. auto.
      - assert (Hlt : (length l < cap)%nat) by lia. rewrite bool_decide_eq_true_2 by lia. rewrite decide_True by lia.
        change (d_capacity (d_set_v d _)) with (d_capacity d). cbv zeta. cbn [d_set_v d_set_end d_v d_begin d_end d_indices].
        rewrite (drep_cap _ _ _ R), (e_end _ _ _ _ R). assert (Hn : (v_n (d_v d) <? Z.of_nat cap) = true) by (rewrite (e_n _ _ _ _ R); lia). rewrite Hn.
        set (p := ring_pos cap b (length l)). assert (Hp : (p < cap)%nat) by (apply ring_pos_lt; lia).
        assert (Hfree : v_occ (d_v d) !! p = Some false).
        { rewrite (e_occ _ _ _ _ R) by exact Hp. apply (f_equal Some). apply bool_decide_eq_false_2. unfold p. rewrite dist_pos by lia. lia. }
        rewrite slot_push_ok; [|apply R|apply R|apply R|exact Hp|exact Hfree]. cbn [obind]. eexists. split; [reflexivity|].
        unfold d_set_v, d_set_end, d_set_begin. cbn [d_set_v d_set_end d_v d_begin d_end d_indices]. rewrite (e_begin _ _ _ _ R).
        replace (inc_mod (Z.of_nat cap) (Z.of_nat p)) with (Z.of_nat (ring_pos cap b (length (l ++ [x])))).
        + eapply push_state; eauto.
          * rewrite app_length. cbn. lia.
          * left. apply dist_pos; lia.
          * intros q Hq. destruct (decide (q = p)) as [->|Hne].
            -- unfold p. rewrite dist_pos by lia. rewrite lookup_app_r by lia. rewrite Nat.sub_diag. reflexivity.
            -- destruct (decide (ring_dist cap b q < length l)%nat); [rewrite lookup_app_l by lia; reflexivity|].
               rewrite !lookup_ge_None_2; [reflexivity|lia|]. rewrite app_length. cbn. assert (ring_dist cap b q <> length l); [|lia].
               intros E. apply Hne. unfold p. rewrite <- E. symmetry. apply pos_dist; assumption.
        + rewrite inc_mod_val by lia. unfold p, ring_pos. rewrite app_length. cbn [length].
          destruct (b + length l <? cap)%nat eqn:E1; destruct (b + (length l + 1) <? cap)%nat eqn:E2; destruct (_ + 1 =? Z.of_nat cap) eqn:E3; lia.
    Qed.

    Lemma push_front_drep b d l x : drep cap b d l ->
      exists b' d', d_push_front d x = Ret (d', bool_decide (length l < cap)%nat) /\ drep cap b' d' (if decide (length l < cap)%nat then x :: l else l) /\
        ((length l < cap)%nat -> b' = if (b =? 0)%nat then (cap - 1)%nat else (b - 1)%nat).
    Proof.
      intros R. unfold d_push_front. rewrite (full_iff _ _ _ R). pose proof (e_le _ _ _ _ R) as Hle. pose proof (e_b _ _ _ _ R) as Hb.
      destruct (Z.of_nat (length l) =? Z.of_nat cap) eqn:Ef.
      - exists b, d. rewrite bool_decide_eq_false_2 by lia. rewrite decide_False by lia. split; [reflexivity|]. split; [exact R|lia].
      - assert (Hlt : (length l < cap)%nat) by lia. rewrite bool_decide_eq_true_2 by lia. rewrite decide_True by lia.
        change (d_capacity (d_set_v d _)) with (d_capacity d). cbv zeta. cbn [d_set_v d_set_begin d_v d_begin d_end d_indices].
        rewrite (drep_cap _ _ _ R), (e_begin _ _ _ _ R). assert (Hn : (v_n (d_v d) <? Z.of_nat cap) = true) by (rewrite (e_n _ _ _ _ R); lia). rewrite Hn.
        rewrite dec_mod_val by lia. set (p := (if (b =? 0) then cap - 1 else b - 1)%nat).
        assert (Ep : dec_reconstruct (Z.of_nat cap) (Z.of_nat b) = Z.of_nat p).
        { unfold dec_reconstruct, p. destruct (Z.of_nat b =? 0) eqn:E1; destruct (b =? 0)%nat eqn:E2; lia. }
        rewrite Ep. assert (Hp : (p < cap)%nat) by (unfold p; destruct (b =? 0)%nat eqn:E2; lia).
        assert (Hdp : ring_dist cap b p = (cap - 1)%nat).
        { unfold p. rl. }
        assert (Hfree : v_occ (d_v d) !! p = Some false).
        { rewrite (e_occ _ _ _ _ R) by exact Hp. apply (f_equal Some). apply bool_decide_eq_false_2. lia. }
        rewrite slot_push_ok; [|apply R|apply R|apply R|exact Hp|exact Hfree]. cbn [obind]. exists p. eexists. split; [reflexivity|]. split; [|intros _; reflexivity].
        unfold d_set_v, d_set_end, d_set_begin. cbn [d_set_v d_set_begin d_v d_begin d_end d_indices].
        assert (Hstep : forall q, (q < cap)%nat -> q <> p -> ring_dist cap p q = S (ring_dist cap b q)).
        { intros q Hq Hne. unfold p in *. rl. }
        assert (Hself : ring_dist cap p p = 0%nat) by (unfold ring_dist; destruct (p <? p)%nat eqn:E3; lia).
        rewrite (e_end _ _ _ _ R).
        replace (ring_pos cap b (length l)) with (ring_pos cap p (length (x :: l))).
        + eapply push_state; eauto.
          intros q Hq. destruct (decide (q = p)) as [->|Hne]; [rewrite Hself; reflexivity|]. rewrite Hstep by assumption. reflexivity.
        + unfold p. cbn [length]. rl.
    Qed.

    Lemma pop_back_drep b d l : drep cap b d l ->
      exists d', d_pop_back d = Ret (d', last l) /\ drep cap b d' (removelast l).
    Proof.
      intros R0. unfold d_pop_back. pose proof (drep_log _ _ _ EvInitCopy R0 eq_refl) as R. cbv zeta.
      set (d0 := d_set_v d (v_log (d_v d) EvInitCopy)) in *. clearbody d0. clear R0 d.
      rewrite (empty_iff _ _ _ R). pose proof (e_le _ _ _ _ R) as Hle. pose proof (e_b _ _ _ _ R) as Hb.
      destruct l as [|x l' _] using rev_ind.
      - cbn. eauto.
      - rewrite last_snoc, removelast_last. rewrite (proj2 (Z.eqb_neq _ _)) by (rewrite app_length; cbn; lia).
        cbn [d_set_v d_set_end d_v d_begin d_end d_indices]. assert (Hn : (0 <? v_n (d_v d0)) = true) by (rewrite (e_n _ _ _ _ R), app_length; cbn; lia). rewrite Hn. rewrite app_length in Hle. cbn [length] in Hle.
        match goal with |- context [d_capacity ?x] => change (d_capacity x) with (d_capacity d0) end. rewrite (drep_cap _ _ _ R), (e_end _ _ _ _ R).
        assert (He : (ring_pos cap b (length (l' ++ [x])) < cap)%nat) by (apply ring_pos_lt; rewrite ?app_length; cbn; lia).
        rewrite dec_mod_val by lia. set (p := ring_pos cap b (length l')). assert (Hp : (p < cap)%nat) by (apply ring_pos_lt; lia).
        assert (Ep : dec_reconstruct (Z.of_nat cap) (Z.of_nat (ring_pos cap b (length (l' ++ [x])))) = Z.of_nat p).
        { unfold dec_reconstruct, p, ring_pos in *. rewrite app_length in *. cbn [length] in *.
          destruct (b + (length l' + 1) <? cap)%nat eqn:E1; destruct (b + length l' <? cap)%nat eqn:E2; destruct (_ =? 0) eqn:E3; lia. }
        rewrite Ep.
        assert (Hdp : ring_dist cap b p = length l') by (apply dist_pos; lia).
        rewrite (slot_pop_ok _ p x); [|apply R|apply R|apply R|exact Hp| |].
        2:{ cbn. rewrite (e_occ _ _ _ _ R) by exact Hp. apply (f_equal Some). apply bool_decide_eq_true_2. rewrite Hdp, app_length. cbn. lia. }
        2:{ cbn. rewrite (e_data _ _ _ _ R) by exact Hp. rewrite Hdp, lookup_app_r by lia. rewrite Nat.sub_diag. reflexivity. }
        cbn [obind]. eexists. split; [reflexivity|]. unfold d_set_v, d_set_end, d_set_begin. cbn [d_set_v d_set_end d_v d_begin d_end d_indices]. rewrite (e_begin _ _ _ _ R).
        eapply pop_state; eauto.
        + rewrite app_length. cbn. lia.
        + intros q Hq. destruct (decide (q = p)) as [->|Hne].
          * rewrite Hdp. apply lookup_ge_None_2. lia.
          * destruct (decide (ring_dist cap b q < length l')%nat); [rewrite lookup_app_l by lia; reflexivity|].
            rewrite !lookup_ge_None_2; [reflexivity| |lia]. rewrite app_length. cbn. assert (ring_dist cap b q <> length l'); [|lia].
            intros E. apply Hne. unfold p. rewrite <- E. symmetry. apply pos_dist; assumption.
        + rewrite Hdp, lookup_app_r by lia. rewrite Nat.sub_diag. reflexivity.
    Qed.

    Lemma pop_front_drep b d l : drep cap b d l ->
      exists b' d', d_pop_front d = Ret (d', head l) /\ drep cap b' d' (tail l).
    Proof.
      intros R0. unfold d_pop_front. pose proof (drep_log _ _ _ EvInitCopy R0 eq_refl) as R. cbv zeta.
      set (d0 := d_set_v d (v_log (d_v d) EvInitCopy)) in *. clearbody d0. clear R0 d.
      rewrite (empty_iff _ _ _ R). pose proof (e_le _ _ _ _ R) as Hle. pose proof (e_b _ _ _ _ R) as Hb.
      destruct l as [|x l].
      - cbn. eauto.
      - cbn [length] in Hle. rewrite (proj2 (Z.eqb_neq _ _)) by (cbn; lia).
        cbn [d_set_v d_set_begin d_v d_begin d_end d_indices head tail]. assert (Hn : (0 <? v_n (d_v d0)) = true) by (rewrite (e_n _ _ _ _ R); cbn; lia). rewrite Hn.
        match goal with |- context [d_capacity ?x] => change (d_capacity x) with (d_capacity d0) end. rewrite (drep_cap _ _ _ R), (e_begin _ _ _ _ R).
        assert (Hself : ring_dist cap b b = 0%nat) by (unfold ring_dist; destruct (b <? b)%nat eqn:E3; lia).
        rewrite (slot_pop_ok _ b x); [|apply R|apply R|apply R|exact Hb| |].
        2:{ cbn. rewrite (e_occ _ _ _ _ R) by exact Hb. apply (f_equal Some). apply bool_decide_eq_true_2. rewrite Hself. cbn. lia. }
        2:{ cbn. rewrite (e_data _ _ _ _ R) by exact Hb. rewrite Hself. reflexivity. }
        rewrite inc_mod_val by lia. set (b' := (if (b + 1 =? cap) then 0 else b + 1)%nat).
        assert (Hb' : (b' < cap)%nat) by (unfold b'; destruct (b + 1 =? cap)%nat eqn:E; lia).
        replace (if Z.of_nat b + 1 =? Z.of_nat cap then 0 else Z.of_nat b + 1) with (Z.of_nat b').
        2:{ unfold b'. destruct (b + 1 =? cap)%nat eqn:E; destruct (_ =? Z.of_nat cap) eqn:E2; lia. }
        cbn [obind]. exists b'. eexists. split; [reflexivity|]. unfold d_set_v, d_set_end, d_set_begin. cbn [d_set_v d_set_begin d_v d_begin d_end d_indices]. rewrite (e_end _ _ _ _ R).
        replace (ring_pos cap b (length (x :: l))) with (ring_pos cap b' (length l)).
        2:{ unfold b'. cbn [length]. rl. }
        eapply pop_state; eauto.
        + intros q Hq. destruct (decide (q = b)) as [->|Hne].
          * apply lookup_ge_None_2. unfold b'. rl.
          * replace (ring_dist cap b q) with (S (ring_dist cap b' q)); [reflexivity|].
            unfold b'. rl.
        + rewrite Hself. reflexivity.
    Qed.

    (** clear *)
    Lemma destroy_range_ok first n (v : vec T) : (first + n <= cap)%nat -> length (v_data v) = cap -> length (v_occ v) = cap ->
      (forall p, (first <= p < first + n)%nat -> exists x, v_data v !! p = Some (Some x)) ->
      exists v' ps, destroy_range ord (Z.of_nat first) (Z.of_nat (first + n)) v = Ret v' /\ ps ≡ₚ seq first n /\
        v_n v' = v_n v /\ v_locks v' = v_locks v /\ length (v_data v') = cap /\ v_occ v' = v_occ v /\
        v_ev v' = v_ev v ++ ((fun p => EvDestroy (InSlot p)) <$> ps) /\
        (forall p, v_data v' !! p = if decide (p ∈ ps) then Some None else v_data v !! p).
    Proof.
      intros Hle Hd Ho Hlive. unfold destroy_range, v_for_each. replace (Z.to_nat (Z.of_nat (first + n) - Z.of_nat first)) with n by lia. rewrite Nat2Z.id.
      destruct (erase_loop ord Hord cap Hcap false first (ord n) v) as (v' & E & H1 & H2 & H3 & H4 & H5 & H6 & H7).
      { rewrite (Hord n). apply NoDup_seq. }
      { intros i Hi. rewrite (Hord n), elem_of_seq in Hi. split; [lia|]. apply Hlive. lia. }
      { exact Hd. } { exact Ho. }
      exists v', ((fun i => first + i)%nat <$> ord n). split; [exact E|]. split; [rewrite (Hord n); rewrite fmap_add_seq, Nat.add_0_r; reflexivity|].
      split; [exact H1|]. split; [exact H2|]. split; [exact H3|]. split.
      { apply list_eq. intros p. rewrite H7. destruct (decide _); reflexivity. }
      split; [rewrite H5; f_equal; rewrite <- list_fmap_compose; reflexivity|].
      intros p. rewrite H6. destruct (decide (in_loop first (ord n) p)) as [Hin|Hnin]; destruct (decide (p ∈ _)) as [Hp|Hp]; try reflexivity.
      - exfalso. apply Hp. apply elem_of_list_fmap. destruct Hin as [Hge Hin]. exists (p - first)%nat. split; [lia|exact Hin].
      - exfalso. apply Hnin. apply elem_of_list_fmap in Hp as (i & -> & Hi). split; [lia|]. replace (first + i - first)%nat with i by lia. exact Hi.
    Qed.

    Notation occupied_slots := (occupied_slots cap).

    Lemma clear_drep b d l : drep cap b d l -> exists b' d', d_clear opt ord d = Ret d' /\ drep cap b' d' [] /\
      (opt = false -> exists ps, v_ev (d_v d') = v_ev (d_v d) ++ ((fun p => EvDestroy (InSlot p)) <$> ps) /\ ps ≡ₚ occupied_slots b l).
    Proof.
      intros R. unfold d_clear. rewrite (empty_iff _ _ _ R), (full_iff _ _ _ R), (drep_cap _ _ _ R). pose proof (e_le _ _ _ _ R) as Hle. pose proof (e_b _ _ _ _ R) as Hb.
      assert (H00 : ring_pos cap 0 0 = 0%nat) by rl.
      destruct (Z.of_nat (length l) =? 0) eqn:E0.
      { destruct l; [|cbn in E0; lia]. exists b, d. split; [reflexivity|]. split; [exact R|]. intros _. exists []. split; [rewrite app_nil_r; reflexivity|].
        unfold occupied_slots. rewrite (list_filter_ext_in _ (fun _ => False)); [|intros p Hp; cbn; lia]. clear. induction (seq 0 cap) as [|x q IH]; [reflexivity|].
        rewrite filter_cons, decide_False by auto. exact IH. }
      cbv zeta. destruct (bool_dec opt true) as [Eo|Eo]; [|apply not_true_is_false in Eo].
      - rewrite Eo. cbn [obind]. eexists 0%nat, _. split; [reflexivity|]. split; [|discriminate].
        split; cbn [d_v d_begin d_end d_indices v_forget v_n v_data v_occ v_locks v_ev]; rewrite ?replicate_length; auto; try apply R; try (cbn; lia).
        + intros p Hp. rewrite lookup_replicate_2 by (rewrite (e_ld _ _ _ _ R); exact Hp). reflexivity.
        + intros p Hp. rewrite lookup_replicate_2 by (rewrite (e_lo _ _ _ _ R); exact Hp). apply (f_equal Some). symmetry. apply bool_decide_eq_false_2. cbn. lia.
      - rewrite Eo.
        assert (Hlive : forall p, (p < cap)%nat -> (ring_dist cap b p < length l)%nat -> exists x, v_data (d_v d) !! p = Some (Some x)).
        { intros p Hp Hd. rewrite (e_data _ _ _ _ R) by exact Hp. destruct (lookup_lt_is_Some_2 l _ Hd) as [x Hx]. exists x. rewrite Hx. reflexivity. }
        assert (Hocc : forall ps, NoDup ps -> (forall p, p ∈ ps <-> (p < cap)%nat /\ (ring_dist cap b p < length l)%nat) -> ps ≡ₚ occupied_slots b l).
        { intros ps H1 H2. apply NoDup_Permutation; [exact H1|apply NoDup_filter, NoDup_seq|]. intros p. rewrite H2, elem_occupied. reflexivity. }
        assert (HD : exists v' ps,
          (if Z.of_nat (length l) =? Z.of_nat cap then destroy_range ord 0 (Z.of_nat cap) (d_v d)
           else if d_begin d <=? d_end d then destroy_range ord (d_begin d) (d_end d) (d_v d)
           else let! v := destroy_range ord 0 (d_end d) (d_v d) in destroy_range ord (d_begin d) (Z.of_nat cap) v) = Ret v' /\
          ps ≡ₚ occupied_slots b l /\ v_locks v' = v_locks (d_v d) /\ length (v_data v') = cap /\ v_occ v' = v_occ (d_v d) /\
          v_ev v' = v_ev (d_v d) ++ ((fun p => EvDestroy (InSlot p)) <$> ps) /\
          (forall p, v_data v' !! p = if decide (p ∈ ps) then Some None else v_data (d_v d) !! p)).
        { rewrite (e_begin _ _ _ _ R), (e_end _ _ _ _ R). set (e := ring_pos cap b (length l)).
          assert (He : (e < cap)%nat) by (apply ring_pos_lt; lia).
          destruct (Z.of_nat (length l) =? Z.of_nat cap) eqn:Ef.
          - destruct (destroy_range_ok 0 cap (d_v d)) as (v' & ps & E & P & _ & H2 & H3 & H4 & H5 & H6); [lia|apply R|apply R| |].
            { intros p Hp. apply Hlive; [lia|]. pose proof (dist_lt cap b Hb p). lia. }
            exists v', ps. split; [exact E|]. split; [|auto]. apply Hocc; [rewrite P; apply NoDup_seq|]. intros p. rewrite P, elem_of_seq. pose proof (dist_lt cap b Hb p). lia.
          - destruct (Z.of_nat b <=? Z.of_nat e) eqn:Ebe.
            + assert (Ee : e = (b + length l)%nat).
              { unfold e, ring_pos in *. destruct (b + length l <? cap)%nat eqn:E1; lia. }
              destruct (destroy_range_ok b (length l) (d_v d)) as (v' & ps & E & P & _ & H2 & H3 & H4 & H5 & H6); [lia|apply R|apply R| |].
              { intros p Hp. apply Hlive; [lia|]. unfold ring_dist. destruct (p <? b)%nat eqn:E1; lia. }
              exists v', ps. rewrite Ee. split; [exact E|]. split; [|auto]. apply Hocc; [rewrite P; apply NoDup_seq|]. intros p. rewrite P, elem_of_seq.
              unfold ring_dist. destruct (p <? b)%nat eqn:E1; lia.
            + assert (Ee : e = (b + length l - cap)%nat /\ (cap <= b + length l)%nat).
              { unfold e, ring_pos in *. destruct (b + length l <? cap)%nat eqn:E1; lia. }
              destruct (destroy_range_ok 0 e (d_v d)) as (v1 & ps1 & E1 & P1 & _ & H12 & H13 & H14 & H15 & H16); [lia|apply R|apply R| |].
              { intros p Hp. apply Hlive; [lia|]. unfold ring_dist. destruct (p <? b)%nat eqn:Ep; lia. }
              destruct (destroy_range_ok b (cap - b) v1) as (v2 & ps2 & E2 & P2 & _ & H22 & H23 & H24 & H25 & H26); [lia|exact H13|rewrite H14; apply R| |].
              { intros p Hp. rewrite H16. rewrite decide_False by (rewrite P1, elem_of_seq; lia). apply Hlive; [lia|]. unfold ring_dist. destruct (p <? b)%nat eqn:Ep; lia. }
              exists v2, (ps1 ++ ps2). change 0 with (Z.of_nat 0). cbn [Nat.add] in E1. rewrite E1. cbn [obind].
              replace (b + (cap - b))%nat with cap in E2 by lia. split; [exact E2|]. split; [|split; [congruence|]; split; [exact H23|]; split; [congruence|]; split].
              * apply Hocc.
                -- rewrite P1, P2. apply NoDup_app. split; [apply NoDup_seq|]. split; [|apply NoDup_seq]. intros p. rewrite !elem_of_seq. lia.
                -- intros p. rewrite elem_of_app, P1, P2, !elem_of_seq. unfold ring_dist. destruct (p <? b)%nat eqn:Ep; lia.
              * rewrite H25, H15, fmap_app, app_assoc. reflexivity.
              * intros p. rewrite H26, H16. destruct (decide (p ∈ ps2)) as [I2|I2]; [rewrite decide_True by (apply elem_of_app; auto); reflexivity|].
                destruct (decide (p ∈ ps1)) as [I1|I1]; [rewrite decide_True by (apply elem_of_app; auto); reflexivity|].
                rewrite decide_False; [reflexivity|]. rewrite elem_of_app. tauto. }
        destruct HD as (v' & ps & E & P & H2 & H3 & H4 & H5 & H6). rewrite E. cbn [obind]. eexists 0%nat, _. split; [reflexivity|].
        split; [|intros _; exists ps; split; [exact H5|exact P]].
        split; cbn [d_v d_begin d_end d_indices v_n v_data v_occ v_locks v_ev]; rewrite ?replicate_length, ?H4; auto; try apply R; try (cbn; lia).
        + rewrite H2. apply R.
        + intros p Hp. rewrite H6. destruct (decide (p ∈ ps)) as [I|I]; [reflexivity|]. rewrite (e_data _ _ _ _ R) by exact Hp. f_equal.
          apply lookup_ge_None_2. rewrite P, elem_occupied in I. lia.
        + intros p Hp. rewrite lookup_replicate_2 by (rewrite (e_lo _ _ _ _ R); exact Hp). apply (f_equal Some). symmetry. apply bool_decide_eq_false_2. cbn. lia.
        + intros _. destruct (e_life _ _ _ _ R Eo) as [L1 L2]. rewrite H5, slot_events_app.
          assert (Eb : slot_events ((fun p => EvDestroy (InSlot p)) <$> ps) = (fun p => EvDestroy (InSlot p)) <$> ps).
          { exact (slot_events_batch (fun p => EvDestroy (InSlot p)) ps (fun _ => eq_refl)). }
          rewrite Eb. destruct (destroy_batch ord Hord cap 0 ps ltac:(rewrite P; apply NoDup_filter, NoDup_seq) (live_after nothing (slot_events (v_ev (d_v d))))) as [B1 B2].
          { intros i Hi. cbn [Nat.add]. rewrite L2. apply bool_decide_eq_true_2. rewrite P, elem_occupied in Hi. exact Hi. }
          split; [apply lifetime_ok_app; auto|]. intros p. rewrite live_after_app. etransitivity; [exact (B2 p)|].
          destruct (decide (in_loop 0 ps p)) as [I|I].
          * symmetry. apply bool_decide_eq_false_2. cbn. lia.
          * rewrite L2. apply bool_decide_ext. cbn [length]. split; [|lia]. intros Hp. exfalso. apply I. split; [lia|]. rewrite Nat.sub_0_r, P, elem_occupied. exact Hp.
    Qed.

    (** device_range *)
    Lemma iota_ok first value : forall os (r : list Z), (forall i, i ∈ os -> (first + i < length r)%nat) ->
      exists r', fold_left (fun acc i => let! r := acc in
          match r !! (first + i)%nat with Some _ => Ret (<[(first + i)%nat := value + Z.of_nat i]> r) | None => UB end) os (Ret r) = Ret r' /\
        length r' = length r /\ forall p, r' !! p = if decide (in_loop first os p) then Some (value + Z.of_nat (p - first)) else r !! p.
    Proof.
      induction os as [|i os IH]; intros r Hos.
      - exists r. cbn. split; [reflexivity|]. split; [reflexivity|]. intros p. rewrite decide_False; auto. intros [_ H]. inversion H.
      - pose proof (Hos i ltac:(left)) as Hi. cbn [fold_left obind]. destruct (lookup_lt_is_Some_2 r _ Hi) as [z Hz]. rewrite Hz.
        destruct (IH (<[(first + i)%nat := value + Z.of_nat i]> r)) as (r' & E & H1 & H2).
        { intros j Hj. rewrite insert_length. apply Hos. right. exact Hj. }
        exists r'. split; [exact E|]. split; [rewrite H1, insert_length; reflexivity|]. intros p. rewrite H2.
        destruct (decide (in_loop first os p)) as [Hin|Hnin].
        + rewrite decide_True; [reflexivity|]. destruct Hin. split; [assumption|right; assumption].
        + destruct (decide (p = (first + i)%nat)) as [->|Hne].
          * rewrite list_lookup_insert by exact Hi. rewrite decide_True; [do 2 f_equal; lia|split; [lia|apply elem_of_cons; left; lia]].
          * rewrite list_lookup_insert_ne by congruence. rewrite decide_False; [reflexivity|].
            intros [Hge Hin]. apply elem_of_cons in Hin as [E2|Hin]; [lia|]. apply Hnin. split; assumption.
    Qed.
    Lemma iota_indices_ok first n value (r : list Z) : (first + n <= length r)%nat ->
      exists r', iota_indices ord first n value r = Ret r' /\ length r' = length r /\
        forall p, r' !! p = if decide (first <= p < first + n)%nat then Some (value + Z.of_nat (p - first)) else r !! p.
    Proof.
      intros H. destruct (iota_ok first value (ord n) r) as (r' & E & H1 & H2). { intros i Hi. apply (in_ord ord Hord cap) in Hi. lia. }
      exists r'. split; [exact E|]. split; [exact H1|]. intros p. rewrite H2. pose proof (in_loop_ord ord Hord cap first n p).
      destruct (decide (in_loop first (ord n) p)), (decide (first <= p < first + n)%nat); tauto.
    Qed.

    Lemma range_drep b d l : drep cap b d l -> 2 * Z.of_nat cap <= 2 ^ 31 -> exists d' idx vals, d_range ord d = Ret (d', idx, vals) /\ drep cap b d' l /\
      (exists r, d' = d_set_indices d r) /\ vals ≡ₚ l /\ idx ≡ₚ Z.of_nat <$> occupied_slots b l /\
      mapM (fun i => v_data (d_v d) !! Z.to_nat i ≫= id) idx = Some vals.
    Proof.
      intros R Hbig. unfold d_range. rewrite (full_iff _ _ _ R), (drep_cap _ _ _ R), (drep_size _ _ _ R), Nat2Z.id. pose proof (e_le _ _ _ _ R) as Hle. pose proof (e_b _ _ _ _ R) as Hb.
      rewrite (e_li _ _ _ _ R). rewrite (e_begin _ _ _ _ R), (e_end _ _ _ _ R). set (e := ring_pos cap b (length l)).
      assert (He : (e < cap)%nat) by (apply ring_pos_lt; lia).
      assert (HR : exists r (ps : list nat),
        (if Z.of_nat (length l) =? Z.of_nat cap then iota_indices ord 0 cap 0 (d_indices d)
         else if Z.of_nat b <=? Z.of_nat e then iota_indices ord 0 (Z.to_nat (Z.of_nat e - Z.of_nat b)) (Z.of_nat b) (d_indices d)
         else require fits_int (Z.of_nat e + Z.of_nat cap) in
           let! r := iota_indices ord 0 (Z.to_nat (Z.of_nat e)) 0 (d_indices d) in
           iota_indices ord (Z.to_nat (Z.of_nat e)) (Z.to_nat (Z.of_nat e + Z.of_nat cap - Z.of_nat b - Z.of_nat e)) (Z.of_nat b) r) = Ret r /\
        length r = cap /\ take (length l) r = Z.of_nat <$> ps /\ NoDup ps /\ (forall p, p ∈ ps <-> (p < cap)%nat /\ (ring_dist cap b p < length l)%nat)).
      { destruct (Z.of_nat (length l) =? Z.of_nat cap) eqn:Ef.
        - destruct (iota_indices_ok 0 cap 0 (d_indices d)) as (r & E & H1 & H2); [rewrite (e_li _ _ _ _ R); lia|]. exists r, (seq 0 cap).
          split; [exact E|]. split; [rewrite H1; apply R|]. split; [|split; [apply NoDup_seq|]].
          + apply list_eq. intros p. rewrite list_lookup_fmap, (take_lookup ord Hord cap), H2 by lia. destruct (decide (p < length l)%nat).
            * rewrite decide_True by lia. rewrite lookup_seq_lt by lia. cbn [fmap option_fmap option_map]. f_equal. lia.
            * rewrite lookup_seq_ge by lia. reflexivity.
          + intros p. rewrite elem_of_seq. pose proof (dist_lt cap b Hb p). lia.
        - destruct (Z.of_nat b <=? Z.of_nat e) eqn:Ebe.
          + assert (Ee : e = (b + length l)%nat).
            { unfold e, ring_pos in *. destruct (b + length l <? cap)%nat eqn:E1; lia. }
            replace (Z.to_nat (Z.of_nat e - Z.of_nat b)) with (length l) by lia.
            destruct (iota_indices_ok 0 (length l) (Z.of_nat b) (d_indices d)) as (r & E & H1 & H2); [rewrite (e_li _ _ _ _ R); lia|]. exists r, (seq b (length l)).
            split; [exact E|]. split; [rewrite H1; apply R|]. split; [|split; [apply NoDup_seq|]].
            * apply list_eq. intros p. rewrite list_lookup_fmap, (take_lookup ord Hord cap), H2 by lia. destruct (decide (p < length l)%nat).
              -- rewrite decide_True by lia. rewrite lookup_seq_lt by lia. cbn [fmap option_fmap option_map]. f_equal. lia.
              -- rewrite lookup_seq_ge by lia. reflexivity.
            * intros p. rewrite elem_of_seq. unfold ring_dist. destruct (p <? b)%nat eqn:E1; lia.
          + assert (Ee : e = (b + length l - cap)%nat /\ (cap <= b + length l)%nat).
            { unfold e, ring_pos in *. destruct (b + length l <? cap)%nat eqn:E1; lia. }
            unfold fits_int. rewrite (proj2 (Z.leb_le _ _)) by lia. rewrite (proj2 (Z.leb_le _ INT_MAX)) by (unfold INT_MAX; lia). cbn [andb].
            rewrite Nat2Z.id. replace (Z.to_nat (Z.of_nat e + Z.of_nat cap - Z.of_nat b - Z.of_nat e)) with (cap - b)%nat by lia.
            destruct (iota_indices_ok 0 e 0 (d_indices d)) as (r1 & E1 & H11 & H12); [rewrite (e_li _ _ _ _ R); lia|]. rewrite E1. cbn [obind]. rewrite (e_li _ _ _ _ R) in H11.
            destruct (iota_indices_ok e (cap - b) (Z.of_nat b) r1) as (r & E & H1 & H2); [lia|]. exists r, (seq 0 e ++ seq b (cap - b)).
            split; [exact E|]. split; [lia|]. split; [|split].
            * apply list_eq. intros p. rewrite list_lookup_fmap, (take_lookup ord Hord cap), H2 by lia. destruct (decide (p < length l)%nat).
              -- rewrite H12. destruct (decide (e <= p < e + (cap - b))%nat).
                 ++ rewrite lookup_app_r by (rewrite seq_length; lia). rewrite seq_length, lookup_seq_lt by lia. cbn [fmap option_fmap option_map]. f_equal. lia.
                 ++ rewrite decide_True by lia. rewrite lookup_app_l by (rewrite seq_length; lia). rewrite lookup_seq_lt by lia. cbn [fmap option_fmap option_map]. f_equal. lia.
              -- rewrite lookup_ge_None_2; [reflexivity|]. rewrite app_length, !seq_length. lia.
            * apply NoDup_app. split; [apply NoDup_seq|]. split; [|apply NoDup_seq]. intros p. rewrite !elem_of_seq. lia.
            * intros p. rewrite elem_of_app, !elem_of_seq. unfold ring_dist. destruct (p <? b)%nat eqn:Ep; lia. }
      destruct HR as (r & ps & E & Hlen & Htake & Hnd & Hps). cbv zeta. rewrite E. cbn [obind]. rewrite Htake.
      assert (Pps : ps ≡ₚ occupied_slots b l).
      { apply NoDup_Permutation; [exact Hnd|apply NoDup_filter, NoDup_seq|]. intros p. rewrite Hps, elem_occupied. reflexivity. }
      assert (Pr : Z.of_nat <$> (ring_pos cap b <$> seq 0 (length l)) ≡ₚ Z.of_nat <$> ps).
      { rewrite Pps. unfold occupied_slots. rewrite (positions cap b Hb) by exact Hle. reflexivity. }
      assert (Hm : mapM (fun i => v_data (d_v d) !! Z.to_nat i ≫= id) (Z.of_nat <$> (ring_pos cap b <$> seq 0 (length l))) = Some l).
      { apply mapM_Some. rewrite Forall2_fmap_l, Forall2_fmap_l. apply Forall2_same_length_lookup. split; [apply seq_length|].
        intros i p x Hp Hx. assert (i < length l)%nat by (eapply lookup_lt_Some; exact Hx). rewrite lookup_seq_lt in Hp by lia. injection Hp as <-. cbn [Nat.add].
        unfold compose. rewrite Nat2Z.id. assert (Hlt : (ring_pos cap b i < cap)%nat) by (apply ring_pos_lt; lia). rewrite (e_data _ _ _ _ R) by exact Hlt.
        cbn. rewrite dist_pos by lia. exact Hx. }
      destruct (mapM_perm _ _ _ Pr _ Hm) as (vals & Ev & Pv). rewrite Ev. eexists _, _, vals. split; [reflexivity|].
      split; [|split; [eauto|]; split; [exact Pv|]; split; [rewrite Pps; reflexivity|exact Ev]].
      destruct R. split; cbn [d_set_indices d_v d_begin d_end d_indices]; auto.
    Qed.

    Lemma index_drep b d l n x : drep cap b d l -> Z.of_nat b + n <= INT_MAX -> 0 <= n -> l !! Z.to_nat n = Some x -> d_index d n = Ret x.
    Proof.
      intros R Hbig Hn Hx. assert (Hlt : (Z.to_nat n < length l)%nat) by (eapply lookup_lt_Some; exact Hx). pose proof (e_le _ _ _ _ R). pose proof (e_b _ _ _ _ R).
      unfold d_index. rewrite (e_begin _ _ _ _ R), (drep_cap _ _ _ R). cbv zeta. unfold fits_int. unfold INT_MAX in Hbig |- *. rewrite (proj2 (Z.leb_le _ _)) by lia. rewrite (proj2 (Z.leb_le _ (2 ^ 31 - 1))) by lia. cbn [andb].
      assert (E : Z.rem (Z.of_nat b + n) (Z.of_nat cap) = Z.of_nat (ring_pos cap b (Z.to_nat n))).
      { rewrite Z.rem_mod_nonneg by lia. unfold ring_pos. destruct (b + Z.to_nat n <? cap)%nat eqn:E.
        - rewrite Z.mod_small by lia. lia.
        - symmetry. apply Z.mod_unique_pos with (q := 1); lia. }
      rewrite E. rewrite (proj2 (Z.leb_le 0 _)) by lia. rewrite Nat2Z.id. assert (Hp : (ring_pos cap b (Z.to_nat n) < cap)%nat) by (apply ring_pos_lt; lia).
      rewrite (e_data _ _ _ _ R) by exact Hp. rewrite dist_pos by lia. rewrite Hx. reflexivity.
    Qed.

    Lemma step_drep b d l op l' r : drep cap b d l -> dop_fits (Z.of_nat cap) op -> spec_dstep (Z.of_nat cap) l op = Ret (l', r) ->
      exists b' d' r', deq_step opt ord d op = Ret (d', r') /\ same_result r' r /\ drep cap b' d' l'.
    Proof.
      intros R Hbig Hs. pose proof (e_le _ _ _ _ R) as Hle. pose proof (e_b _ _ _ _ R) as Hb. destruct op as [x| |x| | | | | |n|n| | | |]; cbn [spec_dstep deq_step dop_fits] in *.
      - destruct (push_back_drep b d l x R) as (d' & E & R'). rewrite E. cbn [obind].
        destruct (Z.of_nat (length l) <? Z.of_nat cap) eqn:El; injection Hs as <- <-.
        + rewrite bool_decide_eq_true_2 by lia. rewrite decide_True in R' by lia. eexists _, _, _. split; [reflexivity|]. split; [reflexivity|exact R'].
        + rewrite bool_decide_eq_false_2 by lia. rewrite decide_False in R' by lia. eexists _, _, _. split; [reflexivity|]. split; [reflexivity|exact R'].
      - destruct (pop_back_drep b d l R) as (d' & E & R'). rewrite E. cbn [obind]. destruct (last l) eqn:Elast; injection Hs as <- <-.
        + eexists _, _, _. split; [reflexivity|]. split; [reflexivity|exact R'].
        + destruct l as [|y l _] using rev_ind; [|rewrite last_snoc in Elast; discriminate]. eexists _, _, _. split; [reflexivity|]. split; [reflexivity|exact R'].
      - destruct (push_front_drep b d l x R) as (b' & d' & E & R' & _). rewrite E. cbn [obind].
        destruct (Z.of_nat (length l) <? Z.of_nat cap) eqn:El; injection Hs as <- <-.
        + rewrite bool_decide_eq_true_2 by lia. rewrite decide_True in R' by lia. eexists _, _, _. split; [reflexivity|]. split; [reflexivity|exact R'].
        + rewrite bool_decide_eq_false_2 by lia. rewrite decide_False in R' by lia. eexists _, _, _. split; [reflexivity|]. split; [reflexivity|exact R'].
      - destruct (pop_front_drep b d l R) as (b' & d' & E & R'). rewrite E. cbn [obind]. destruct l as [|y l]; injection Hs as <- <-; cbn [head tail] in *;
          (eexists _, _, _; split; [reflexivity|]; split; [reflexivity|exact R']).
      - destruct (clear_drep b d l R) as (b' & d' & E & R' & _). rewrite E. injection Hs as <- <-. cbn [obind]. eexists _, _, _. split; [reflexivity|]. split; [reflexivity|exact R'].
      - rewrite (drep_size _ _ _ R). injection Hs as <- <-. eexists _, _, _. split; [reflexivity|]. split; [reflexivity|exact R].
      - rewrite (empty_iff _ _ _ R). injection Hs as <- <-. eexists _, _, _. split; [reflexivity|]. split; [reflexivity|exact R].
      - rewrite (full_iff _ _ _ R). injection Hs as <- <-. eexists _, _, _. split; [reflexivity|]. split; [reflexivity|exact R].
      - unfold spec_get in Hs. destruct (Z.leb_spec 0 n) as [H0|H0]; [|discriminate]. destruct (l !! Z.to_nat n) as [x|] eqn:Ex; [|discriminate]. injection Hs as <- <-.
        assert (Hlt : (Z.to_nat n < length l)%nat) by (eapply lookup_lt_Some; exact Ex). rewrite (index_drep _ _ _ n _ R ltac:(unfold INT_MAX in *; lia) H0 Ex). cbn [obind]. eexists _, _, _. split; [reflexivity|]. split; [reflexivity|exact R].
      - contradiction.
      - destruct l as [|x l]; [discriminate|]. cbn [head] in Hs. injection Hs as <- <-. unfold d_front. rewrite (index_drep _ _ _ 0 x R); [|unfold INT_MAX in *; lia|lia|reflexivity].
        cbn [obind]. eexists _, _, _. split; [reflexivity|]. split; [reflexivity|exact R].
      - destruct l as [|y l _] using rev_ind; [discriminate|]. rewrite last_snoc in Hs. injection Hs as <- <-. unfold d_back. rewrite (drep_size _ _ _ R), app_length. cbn [length].
        rewrite app_length in Hle. cbn [length] in Hle. rewrite (index_drep _ _ _ _ y R); [|unfold INT_MAX in *; lia|lia|].
        + cbn [obind]. eexists _, _, _. split; [reflexivity|]. split; [reflexivity|exact R].
        + replace (Z.to_nat (Z.of_nat (length l + 1) - 1)) with (length l) by lia. rewrite lookup_app_r by lia. rewrite Nat.sub_diag. reflexivity.
      - destruct (range_drep _ _ _ R Hbig) as (d' & idx & vals & E & R' & _ & P & _). rewrite E. injection Hs as <- <-. cbn [obind]. eexists _, _, _. split; [reflexivity|]. split; [exact P|exact R'].
      - rewrite (drep_valid _ _ _ R). injection Hs as <- <-. eexists _, _, _. split; [reflexivity|]. split; [reflexivity|exact R].
    Qed.

    Lemma run_drep ops : forall b d l l' rs, drep cap b d l -> (forall op, op ∈ ops -> dop_fits (Z.of_nat cap) op) ->
      spec_drun (Z.of_nat cap) l ops = Ret (l', rs) ->
      exists b' d' rs', deq_run opt ord d ops = Ret (d', rs') /\ Forall2 same_result rs' rs /\ drep cap b' d' l'.
    Proof.
      induction ops as [|op ops IH]; intros b d l l' rs R Hat Hs.
      - cbn in *. injection Hs as <- <-. eexists _, _, _. split; [reflexivity|]. split; [constructor|exact R].
      - cbn [spec_drun deq_run] in *. destruct (spec_dstep (Z.of_nat cap) l op) as [[l1 r]| |] eqn:E1; try discriminate. cbn [obind] in Hs.
        destruct (spec_drun (Z.of_nat cap) l1 ops) as [[l2 rs2]| |] eqn:E2; try discriminate. cbn [obind] in Hs. injection Hs as <- <-.
        destruct (step_drep _ _ _ _ _ _ R (Hat op ltac:(left)) E1) as (b1 & d1 & r1 & Es & Hr & R1). rewrite Es. cbn [obind].
        destruct (IH _ _ _ _ _ R1 (fun o Ho => Hat o (elem_of_list_further _ _ _ Ho)) E2) as (b2 & d2 & rs' & E3 & Hrs & R2). rewrite E3. cbn [obind].
        eexists _, _, _. split; [reflexivity|]. split; [constructor; assumption|exact R2].
    Qed.
  End rep.
End seq.

(** ** statements *)
Lemma occ_slots {T} opt cap b (d : deq T) l p : drep opt cap b d l -> p ∈ occupied_slots (T:=T) cap b l <-> v_occ (d_v d) !! p = Some true.
Proof.
  intros R. rewrite elem_occupied. destruct (decide (p < cap)%nat) as [Hp|Hp].
  - rewrite (e_occ _ _ _ _ _ R) by exact Hp. split; [intros [_ H]; apply (f_equal Some); apply bool_decide_eq_true_2; exact H|].
    intros E. injection E as E. apply bool_decide_eq_true in E. auto.
  - split; [lia|]. intros E. apply lookup_lt_Some in E. rewrite (e_lo _ _ _ _ _ R) in E. lia.
Qed.

Section statements.
  Context {T : Type} (opt : bool) (ord : nat -> list nat) (Hord : forall n, ord n ≡ₚ seq 0 n).

  Lemma deq_run_drep junk cap (ops : list (dop T)) l rs : 0 < cap <= INT_MAX -> (forall op, op ∈ ops -> dop_fits cap op) ->
    spec_drun cap [] ops = Ret (l, rs) ->
    exists d0 b d rs', deq_create junk cap = Ret d0 /\ deq_run opt ord d0 ops = Ret (d, rs') /\ Forall2 same_result rs' rs /\ drep opt (Z.to_nat cap) b d l.
  Proof.
    intros Hcap Hfit Hs. assert (exists n, cap = Z.of_nat n) as [n ->] by (exists (Z.to_nat cap); lia). rewrite Nat2Z.id.
    destruct (drep_create (T:=T) opt ord Hord n Hcap junk) as (d0 & E0 & R0).
    destruct (run_drep opt ord Hord n Hcap ops _ _ _ _ _ R0 Hfit Hs) as (b & d & rs' & E & Hr & R). eauto 10.
  Qed.

  Lemma deq_refines junk cap (ops : list (dop T)) l rs : 0 < cap <= INT_MAX -> (forall op, op ∈ ops -> dop_fits cap op) ->
    spec_drun cap [] ops = Ret (l, rs) ->
    exists d0 d rs', deq_create junk cap = Ret d0 /\ deq_run opt ord d0 ops = Ret (d, rs') /\ Forall2 same_result rs' rs /\
      d_valid d = true /\ d_size d = Z.of_nat (length l).
  Proof.
    intros Hcap Hfit Hs. destruct (deq_run_drep junk cap ops l rs Hcap Hfit Hs) as (d0 & b & d & rs' & E0 & E & Hr & R).
    exists d0, d, rs'. split; [exact E0|]. split; [exact E|]. split; [exact Hr|]. assert (Hc : 0 < Z.of_nat (Z.to_nat cap) <= INT_MAX) by lia.
    split; [exact (drep_valid _ ord Hord _ Hc _ _ _ R)|exact (drep_size _ ord Hord _ _ _ _ R)].
  Qed.

  Lemma deq_range_exact junk cap (ops : list (dop T)) l rs d0 d rs' : 0 < cap -> 2 * cap <= 2 ^ 31 -> (forall op, op ∈ ops -> dop_fits cap op) ->
    spec_drun cap [] ops = Ret (l, rs) -> deq_create junk cap = Ret d0 -> deq_run opt ord d0 ops = Ret (d, rs') ->
    exists r idx vals, d_range ord d = Ret (d_set_indices d r, idx, vals) /\ NoDup idx /\ Z.of_nat (length idx) = d_size d /\
      (forall i, i ∈ idx <-> exists p, i = Z.of_nat p /\ v_occ (d_v d) !! p = Some true) /\
      mapM (fun i => v_data (d_v d) !! Z.to_nat i ≫= id) idx = Some vals /\ vals ≡ₚ l.
  Proof.
    intros Hcap Hbig Hfit Hs E0' E'. assert (Hc : 0 < cap <= INT_MAX) by (unfold INT_MAX; lia).
    destruct (deq_run_drep junk cap ops l rs Hc Hfit Hs) as (d1 & b & d2 & rs2 & E0 & E & Hr & R).
    rewrite E0 in E0'. injection E0' as ->. rewrite E in E'. injection E' as -> ->.
    assert (Hc' : 0 < Z.of_nat (Z.to_nat cap) <= INT_MAX) by lia.
    destruct (range_drep _ ord Hord _ Hc' _ _ _ R ltac:(lia)) as (d' & idx & vals & Er & _ & (r & ->) & Pv & Pi & Em).
    exists r, idx, vals. split; [exact Er|]. split; [rewrite Pi; apply NoDup_fmap_2; [intros x y; lia|apply NoDup_filter, NoDup_seq]|].
    split; [|split; [|split; [exact Em|exact Pv]]].
    - rewrite (drep_size _ ord Hord _ _ _ _ R), <- Pv. f_equal. apply mapM_Some in Em. exact (Forall2_length _ _ _ Em).
    - intros i. rewrite Pi, elem_of_list_fmap. setoid_rewrite (occ_slots _ _ _ _ _ _ R). naive_solver.
  Qed.

  Lemma deq_clear_exact junk cap (ops : list (dop T)) l rs d0 d rs' : 0 < cap <= INT_MAX -> (forall op, op ∈ ops -> dop_fits cap op) ->
    spec_drun cap [] ops = Ret (l, rs) -> deq_create junk cap = Ret d0 -> deq_run opt ord d0 ops = Ret (d, rs') ->
    exists d', d_clear opt ord d = Ret d' /\ d_size d' = 0 /\ d_valid d' = true /\ (forall p, v_occ (d_v d') !! p <> Some true) /\
      (opt = false -> deq_destroy opt ord d = Ret d' /\ exists ps, v_ev (d_v d') = v_ev (d_v d) ++ ((fun p => EvDestroy (InSlot p)) <$> ps) /\ NoDup ps /\
        (forall p, p ∈ ps <-> v_occ (d_v d) !! p = Some true) /\ length ps = length l).
  Proof.
    intros Hcap Hfit Hs E0' E'.
    destruct (deq_run_drep junk cap ops l rs Hcap Hfit Hs) as (d1 & b & d2 & rs2 & E0 & E & Hr & R).
    rewrite E0 in E0'. injection E0' as ->. rewrite E in E'. injection E' as -> ->.
    assert (Hc' : 0 < Z.of_nat (Z.to_nat cap) <= INT_MAX) by lia.
    destruct (clear_drep _ ord Hord _ Hc' _ _ _ R) as (b' & d' & Ec & R' & Hev). exists d'. split; [exact Ec|].
    split; [exact (drep_size _ ord Hord _ _ _ _ R')|]. split; [exact (drep_valid _ ord Hord _ Hc' _ _ _ R')|]. split.
    - intros p Hp. apply (occ_slots _ _ _ _ _ _ R') in Hp. apply elem_occupied in Hp. cbn in Hp. lia.
    - intros Ho. split; [unfold deq_destroy; rewrite Ho in *; exact Ec|]. destruct (Hev Ho) as (ps & Ee & P). exists ps. split; [exact Ee|]. split; [rewrite P; apply NoDup_filter, NoDup_seq|]. split.
      + intros p. rewrite P. apply (occ_slots _ _ _ _ _ _ R).
      + rewrite P. unfold occupied_slots. rewrite (positions _ _ (e_b _ _ _ _ _ R) _ (e_le _ _ _ _ _ R)), fmap_length, seq_length. reflexivity.
  Qed.
End statements.

Lemma deq_lifetimes {T} ord (Hord : forall n, ord n ≡ₚ seq 0 n) junk cap (ops : list (dop T)) l rs d0 d rs' : 0 < cap <= INT_MAX ->
  (forall op, op ∈ ops -> dop_fits cap op) -> spec_drun cap [] ops = Ret (l, rs) -> deq_create junk cap = Ret d0 -> deq_run false ord d0 ops = Ret (d, rs') ->
  lifetime_ok nothing (slot_events (v_ev (d_v d))) /\
  (forall p, live_after nothing (slot_events (v_ev (d_v d))) (InSlot p) = true <-> v_occ (d_v d) !! p = Some true) /\
  exists d', deq_destroy false ord d = Ret d' /\ lifetime_ok nothing (slot_events (v_ev (d_v d'))) /\
    forall p, constructs (InSlot p) (slot_events (v_ev (d_v d'))) = destroys (InSlot p) (slot_events (v_ev (d_v d'))).
Proof.
  intros Hcap Hfit Hs E0' E'.
  destruct (deq_run_drep false ord Hord junk cap ops l rs Hcap Hfit Hs) as (d1 & b & d2 & rs2 & E0 & E & Hr & R).
  rewrite E0 in E0'. injection E0' as ->. rewrite E in E'. injection E' as -> ->.
  assert (Hc' : 0 < Z.of_nat (Z.to_nat cap) <= INT_MAX) by lia.
  destruct (e_life _ _ _ _ _ R eq_refl) as [L1 L2]. split; [exact L1|]. split.
  - intros p. rewrite L2, bool_decide_eq_true, <- (elem_occupied (T:=T)). apply (occ_slots _ _ _ _ _ _ R).
  - cbn [deq_destroy]. destruct (clear_drep _ ord Hord _ Hc' _ _ _ R) as (b' & d' & Ec & R' & _). exists d'. split; [exact Ec|].
    destruct (e_life _ _ _ _ _ R' eq_refl) as [L1' L2']. split; [exact L1'|]. intros p.
    pose proof (construct_destroy_balance _ nothing (InSlot p) L1') as Hb. rewrite L2', bool_decide_eq_false_2 in Hb by (cbn; lia).
    change (Z.b2z (nothing (InSlot p))) with 0 in Hb. change (Z.b2z false) with 0 in Hb. lia.
Qed.

(** ** queue and stack *)
Section adaptors.
  Context {T : Type} (opt : bool) (ord : nat -> list nat) (Hord : forall n, ord n ≡ₚ seq 0 n).
  Lemma adaptor_results junk cap (f : aqop T -> dop T) (g : list T -> aqop T -> list T * vres T) (Q : list T -> list T -> Prop) (ops : list (aqop T)) :
    0 < cap <= INT_MAX -> (forall op, dop_fits cap (f op)) -> Q [] [] ->
    (forall l a op, Q l a -> exists l', spec_dstep cap l (f op) = Ret (l', (g a op).2) /\ Q l' (g a op).1 /\ forall r', same_result r' (g a op).2 -> r' = (g a op).2) ->
    exists d0 d, deq_create junk cap = Ret d0 /\ deq_run opt ord d0 (f <$> ops) = Ret (d, spec_aq g [] ops).
  Proof.
    intros Hcap Hfit Q0 Hstep.
    assert (Hs : forall l0 a0, Q l0 a0 -> exists l, spec_drun cap l0 (f <$> ops) = Ret (l, spec_aq g a0 ops) /\ Forall (fun r => forall r', same_result r' r -> r' = r) (spec_aq g a0 ops)).
    { induction ops as [|op ops IH]; intros l0 a0 H0; [cbn; eauto|]. rewrite fmap_cons. cbn [spec_drun spec_aq].
      destruct (Hstep l0 a0 op H0) as (l1 & E1 & Q1 & S1). destruct (g a0 op) as [a1 r1]. cbn [fst snd] in *. rewrite E1. cbn [obind].
      destruct (IH l1 a1 Q1) as (l & E & F). rewrite E. cbn [obind]. eexists. split; [reflexivity|]. constructor; assumption. }
    destruct (Hs [] [] Q0) as (l & Es & F). 
    assert (Hf : forall op, op ∈ f <$> ops -> dop_fits cap op).
    { intros op Hop. apply elem_of_list_fmap in Hop as (o & -> & _). apply Hfit. }
    destruct (deq_refines opt ord Hord junk cap (f <$> ops) l _ Hcap Hf Es) as (d0 & d & rs' & E0 & E & Hr & _).
    exists d0, d. split; [exact E0|]. rewrite E. do 2 f_equal. clear -Hr F. induction Hr as [|r' r rs' rs H1 H2 IH]; [reflexivity|]. inversion F; subst. f_equal; auto.
  Qed.

  Lemma queue_results junk cap (ops : list (aqop T)) : 0 < cap <= INT_MAX ->
    exists d0 d, deq_create junk cap = Ret d0 /\ deq_run opt ord d0 (queue_op <$> ops) = Ret (d, spec_aq (spec_queue cap) [] ops).
  Proof.
    intros Hcap. apply (adaptor_results junk cap queue_op _ eq); auto.
    - intros []; exact I.
    - intros l a [x|] ->; cbn [queue_op spec_dstep spec_queue].
      + destruct (Z.of_nat (length a) <? cap); eexists; (split; [reflexivity|]); (split; [reflexivity|]); intros [] H; cbn in *; congruence.
      + destruct a as [|y a]; eexists; (split; [reflexivity|]); (split; [reflexivity|]); intros [] H; cbn in *; congruence.
  Qed.
  Lemma stack_results junk cap (ops : list (aqop T)) : 0 < cap <= INT_MAX ->
    exists d0 d, deq_create junk cap = Ret d0 /\ deq_run opt ord d0 (stack_op <$> ops) = Ret (d, spec_aq (spec_stack cap) [] ops).
  Proof.
    intros Hcap. apply (adaptor_results junk cap stack_op _ (fun l a => l = rev a)); auto.
    - intros []; exact I.
    - intros l a [x|] ->; cbn [stack_op spec_dstep spec_stack].
      + rewrite rev_length. destruct (Z.of_nat (length a) <? cap); eexists; (split; [reflexivity|]); (split; [reflexivity|]); intros [] H; cbn in *; congruence.
      + destruct a as [|y a].
        * eexists. split; [reflexivity|]. split; [reflexivity|]. intros [] H; cbn in *; congruence.
        * cbn [rev]. rewrite last_snoc, removelast_last. eexists. split; [reflexivity|]. split; [reflexivity|]. intros [] H; cbn in *; congruence.
  Qed.
End adaptors.

Lemma queue_fifo {T} cap (ops : list (aqop T)) : forall l, exists rest, l ++ accepted ops (spec_aq (spec_queue cap) l ops) = returned (spec_aq (spec_queue cap) l ops) ++ rest.
Proof.
  induction ops as [|[x|] ops IH]; intros l.
  - exists l. cbn. rewrite app_nil_r. reflexivity.
  - cbn [spec_aq spec_queue]. destruct (Z.of_nat (length l) <? cap).
    + destruct (IH (l ++ [x])) as [rest E]. exists rest. unfold accepted, returned in *. cbn. rewrite <- E, <- app_assoc. reflexivity.
    + destruct (IH l) as [rest E]. exists rest. exact E.
  - cbn [spec_aq spec_queue]. destruct l as [|y l].
    + destruct (IH []) as [rest E]. exists rest. exact E.
    + destruct (IH l) as [rest E]. exists rest. unfold accepted, returned in *. cbn. rewrite <- E. reflexivity.
Qed.
Lemma queue_order {T} opt ord (Hord : forall n, ord n ≡ₚ seq 0 n) junk cap (ops : list (aqop T)) d0 d rs : 0 < cap <= INT_MAX ->
  deq_create junk cap = Ret d0 -> deq_run opt ord d0 (queue_op <$> ops) = Ret (d, rs) -> returned rs `prefix_of` accepted ops rs.
Proof.
  intros Hcap E0 E. destruct (queue_results opt ord Hord junk cap ops Hcap) as (d1 & d2 & E1 & E2). rewrite E0 in E1. injection E1 as <-. rewrite E in E2. injection E2 as <- ->.
  destruct (queue_fifo cap ops []) as [rest H]. exists rest. exact H.
Qed.

(** ** capacity INT_MAX *)
Lemma big_capacity {T} opt ord (Hord : forall n, ord n ≡ₚ seq 0 n) junk (x : T) :
  exists d0 d rs, deq_create junk INT_MAX = Ret d0 /\ deq_run opt ord d0 [DPushFront x; DPushBack x; DPushBack x] = Ret (d, rs) /\
    deq_step opt ord d (DIndex 2) = UB /\ deq_step opt ord d DRange = UB.
Proof.
  assert (exists n, INT_MAX = Z.of_nat n) as [cap Ecap] by (exists (Z.to_nat INT_MAX); unfold INT_MAX; lia).
  assert (Hcap : 0 < Z.of_nat cap <= INT_MAX) by (rewrite <- Ecap; unfold INT_MAX; lia). assert (Hbig : (10 < cap)%nat) by (unfold INT_MAX in Ecap; lia).
  rewrite Ecap.
  destruct (drep_create (T:=T) opt ord Hord cap Hcap junk) as (d0 & E0 & R0).
  destruct (push_front_drep opt ord Hord cap Hcap _ _ _ x R0) as (b1 & d1 & E1 & R1 & Hb1). cbn [length] in *. specialize (Hb1 ltac:(lia)). rewrite decide_True in R1 by lia.
  destruct (push_back_drep opt ord Hord cap Hcap _ _ _ x R1) as (d2 & E2 & R2). cbn [length app] in *. rewrite decide_True in R2 by lia.
  destruct (push_back_drep opt ord Hord cap Hcap _ _ _ x R2) as (d3 & E3 & R3). cbn [length app] in *. rewrite decide_True in R3 by lia.
  exists d0, d3. eexists. split; [exact E0|]. split.
  { cbn [deq_run deq_step]. rewrite E1. cbn [obind]. rewrite E2. cbn [obind]. rewrite E3. cbn [obind]. reflexivity. }
  assert (Eb : d_begin d3 = INT_MAX - 1) by (rewrite (e_begin _ _ _ _ _ R3), Hb1; cbn; lia).
  split.
  - cbn [deq_step]. unfold d_index. rewrite Eb. reflexivity.
  - cbn [deq_step]. unfold d_range. rewrite (full_iff _ ord Hord _ _ _ _ R3). cbn [length]. rewrite (proj2 (Z.eqb_neq _ _)) by lia.
    assert (Ee : d_end d3 = 2). { rewrite (e_end _ _ _ _ _ R3), Hb1. cbn [length Nat.eqb]. unfold ring_pos. destruct (_ <? cap)%nat eqn:E; lia. }
    rewrite Eb, Ee, (drep_cap _ _ _ _ _ R3), <- Ecap. reflexivity.
Qed.
