From Verif Require Import Base Conc SlotModel Lifetime VectorModel VectorProofs UnorderedModel UnorderedSpec HashProofs UnorderedProofs CollectSpec LoopModel LoopSpec LoopProofs ValidSpec.

Lemma zat_inv {A} (l : list A) i x : zat l i = Ret x -> 0 <= i /\ l !! Z.to_nat i = Some x.
Proof. unfold zat. destruct (Z.leb_spec 0 i); [|discriminate]. destruct (l !! Z.to_nat i); [|discriminate]. intros [= ->]. auto. Qed.
Lemma fold_all (f : Z -> outcome bool) (l : list nat) : forall acc, fold_left (fun acc i => let! a := acc in let! b := f (Z.of_nat i) in Ret (a && b)) l acc = Ret true ->
  acc = Ret true /\ forall i, i ∈ l -> f (Z.of_nat i) = Ret true.
Proof.
  induction l as [|i l IH]; intros acc H; cbn [fold_left] in H.
  - split; [exact H|]. intros j Hj. inversion Hj.
  - apply IH in H. destruct H as [H1 H2]. destruct acc as [a| |]; try discriminate. cbn [obind] in H1. destruct (f (Z.of_nat i)) as [b| |] eqn:E; try discriminate.
    cbn [obind] in H1. injection H1 as H1. destruct a, b; try discriminate. split; [reflexivity|]. intros j [->|Hj]%elem_of_cons; auto.
Qed.
Lemma for_all_inv n f : for_all n f = Ret true -> forall i, (Z.of_nat i < n) -> f (Z.of_nat i) = Ret true.
Proof. intros H i Hi. apply fold_all in H. destruct H as [_ H]. apply H. apply elem_of_seq. lia. Qed.
Lemma oand_inv a b : oand a b = Ret true -> a = Ret true /\ b = Ret true.
Proof. unfold oand. destruct a as [[]| |]; cbn; intros H; try discriminate. auto. Qed.

(** the sequential loop_free is one of the schedules of its kernel *)
Section sequential.
  Context {V : Type} (u : utab V).
  Lemma visit_loop_run fuel : forall is i p flags flags', visit_loop fuel u (Z.of_nat p) flags = Ret flags' ->
    Conc.reach (visit_step (u_off u)) (flags, [(is, VOff i p)]) (flags', [(is, VHead)]).
  Proof.
    induction fuel as [|fuel IH]; intros is i p flags flags' H; [discriminate|]. cbn [visit_loop] in H.
    destruct (zat (u_off u) (Z.of_nat p)) as [o| |] eqn:Eo; try discriminate. cbn [obind] in H. apply zat_inv in Eo. destruct Eo as [_ Eo]. rewrite Nat2Z.id in Eo.
    destruct (Z.eqb_spec o 0) as [->|N].
    - injection H as <-. eapply rtc_l; [|apply rtc_refl]. apply (CStep _ flags [(is, VOff i p)] 0%nat (is, VOff i p) flags (is, VHead)); [reflexivity|]. destruct is; cbn; rewrite Eo; reflexivity.
    - destruct (zat flags (Z.of_nat p + o)) as [m| |] eqn:Em; try discriminate. cbn [obind] in H. apply zat_inv in Em. destruct Em as [Hq Em].
      set (q := Z.to_nat (Z.of_nat p + o)) in *.
      eapply rtc_l; [apply (CStep _ flags [(is, VOff i p)] 0%nat (is, VOff i p) flags (is, VAdd i q)); [reflexivity|]|].
      { destruct is; cbn; rewrite Eo; (rewrite (proj2 (Z.eqb_neq _ _)) by exact N); (rewrite (proj2 (Z.ltb_ge _ _)) by exact Hq); reflexivity. }
      cbn [insert list_insert].
      eapply rtc_l; [apply (CStep _ flags [(is, VAdd i q)] 0%nat (is, VAdd i q) (<[q := m + 1]> flags) (is, VCheck i q)); [reflexivity|]|].
      { destruct is; cbn; rewrite Em; reflexivity. }
      cbn [insert list_insert].
      assert (Em' : <[q := m + 1]> flags !! q = Some (m + 1)) by (apply list_lookup_insert; apply lookup_lt_Some in Em; exact Em).
      destruct (Z.ltb_spec 1 (m + 1)) as [L|L].
      + injection H as <-. eapply rtc_l; [|apply rtc_refl]. apply (CStep _ (<[q := m + 1]> flags) [(is, VCheck i q)] 0%nat (is, VCheck i q) (<[q := m + 1]> flags) (is, VHead)); [reflexivity|].
        destruct is; cbn; rewrite Em'; (rewrite (proj2 (Z.ltb_lt _ _)) by lia); reflexivity.
      + eapply rtc_l; [apply (CStep _ (<[q := m + 1]> flags) [(is, VCheck i q)] 0%nat (is, VCheck i q) (<[q := m + 1]> flags) (is, VOff i q)); [reflexivity|]|].
        { destruct is; cbn; rewrite Em'; (rewrite (proj2 (Z.ltb_ge _ _)) by lia); reflexivity. }
        cbn [insert list_insert]. apply IH. replace (Z.of_nat q) with (Z.of_nat p + o) by (unfold q; lia). exact H.
  Qed.
  Lemma visits_run (l : list nat) : forall acc flags', fold_left (fun acc i => let! s := acc in count_visits u i s) l acc = Ret flags' ->
    exists flags, acc = Ret flags /\ Conc.reach (visit_step (u_off u)) (flags, [(l, VHead)]) (flags', [([], VHead)]).
  Proof.
    induction l as [|i l IH]; intros acc flags' H; cbn [fold_left] in H; [exists flags'; split; [exact H|apply rtc_refl]|].
    apply IH in H. destruct H as (flags1 & E & R). destruct acc as [flags| |]; try discriminate. exists flags. split; [reflexivity|]. cbn [obind] in E.
    unfold count_visits in E. destruct (zat flags (Z.of_nat i)) as [m| |] eqn:Em; try discriminate. cbn [obind] in E. apply zat_inv in Em. destruct Em as [_ Em]. rewrite Nat2Z.id in Em.
    eapply rtc_l; [apply (CStep _ flags [(i :: l, VHead)] 0%nat (i :: l, VHead) (<[i := m + 1]> flags) (l, VOff i i)); [reflexivity|cbn; rewrite Em; reflexivity]|].
    cbn [insert list_insert]. eapply rtc_transitive; [eapply visit_loop_run; exact E|exact R].
  Qed.
End sequential.

Section valid.
  Context {K V : Type} (kf : V -> K) (hash : K -> Z) (keq : K -> K -> bool) (ord : nat -> list nat).
  Context (Hk : key_equality keq) (Hh : hash_respects keq hash) (Ho : any_order ord).
  Context (u : utab V) (Hu : arrays_ok u) (Hv : u_valid kf hash keq ord u = Ret true).
  Notation n := (length (u_occ u)).

  Lemma parts : for_all (total_count u) (offset_inside_range u) = Ret true /\ loop_free ord u = Ret true /\ for_all (total_count u) (value_reachable kf hash keq u) = Ret true /\
    for_all (total_count u) (values_unique kf hash keq u) = Ret true /\ u_occupied_count_valid u = Ret true /\ (bcount (u_locks u) =? 0) = true /\ v_valid (u_excess u) = true.
  Proof using All.
    unfold u_valid in Hv. rewrite (proj2 (Z.eqb_neq _ _)) in Hv by (destruct Hu; lia).
    apply oand_inv in Hv as [H1 H]. apply oand_inv in H as [H2 H]. apply oand_inv in H as [H3 H]. apply oand_inv in H as [H4 H]. apply oand_inv in H as [H5 H].
    apply oand_inv in H as [H6 H]. injection H6 as H6. injection H as H. auto 10.
  Qed.

  Lemma inside : links_inside (u_off u).
  Proof using All.
    destruct parts as (H & _). destruct Hu as (_ & _ & L). intros p o E. assert (Hp : (p < n)%nat) by (rewrite <- L; apply lookup_lt_Some in E; exact E).
    pose proof (for_all_inv _ _ H p) as M. unfold total_count in M. specialize (M ltac:(lia)). unfold offset_inside_range, zat in M. rewrite (proj2 (Z.leb_le _ _)), Nat2Z.id, E in M by lia. cbn [obind] in M.
    injection M as M. apply negb_true_iff, orb_false_iff in M. destruct M as [M1 M2]. apply Z.ltb_ge in M1. apply Z.leb_gt in M2. unfold total_count in M2. rewrite L. lia.
  Qed.
  Lemma separate : lists_separate (u_off u) (Z.to_nat (u_bc u)).
  Proof using All.
    destruct parts as (_ & H & _). unfold loop_free in H. destruct (u_for_each _ _ _ _) as [flags| |] eqn:E; try discriminate. cbn [obind] in H.
    unfold u_for_each in E. apply visits_run in E. destruct E as (flags0 & E0 & R). injection E0 as <-.
    destruct Hu as (Hb & _ & L). unfold total_count in *. rewrite Nat2Z.id in R.
    assert (Hd : dealt (Z.to_nat (u_bc u)) [ord (Z.to_nat (u_bc u))]) by (unfold dealt; cbn; rewrite app_nil_r; apply Ho).
    assert (Hbc : (Z.to_nat (u_bc u) <= n)%nat) by lia.
    destruct (linv_reach (u_off u) n (Z.to_nat (u_bc u)) L inside Hbc _ _ R _ (linv_start (u_off u) n (Z.to_nat (u_bc u)) L inside Hbc [ord (Z.to_nat (u_bc u))] Hd)) as [G I]. cbn [fst snd] in I.
    assert (Hvis : visited [([], VHead)]) by (intros t [->|Ht]%elem_of_cons; [reflexivity|inversion Ht]).
    apply (proj1 (linv_end (u_off u) n _ L inside Hbc _ _ _ I Hvis)).
    unfold visit_result. rewrite forallb_forall. intros x Hx. apply elem_of_list_In, elem_of_list_lookup in Hx. destruct Hx as [p Hp].
    pose proof (for_all_inv _ _ H p) as M. specialize (M ltac:(apply lookup_lt_Some in Hp; rewrite (li_len _ _ _ _ _ _ I) in Hp; lia)).
    unfold zat in M. rewrite (proj2 (Z.leb_le _ _)), Nat2Z.id, Hp in M by lia. cbn [obind] in M. injection M as M. exact M.
  Qed.
  Lemma occupied_get p b : u_occ u !! p = Some b -> u_occupied u (Z.of_nat p) = Ret b.
  Proof.
    intros E. assert (Hp : (p < n)%nat) by (apply lookup_lt_Some in E; exact E). unfold u_occupied, total_count, zat.
    rewrite (proj2 (Z.leb_le _ _)), (proj2 (Z.ltb_lt _ _)), Nat2Z.id, E by lia. reflexivity.
  Qed.
  Lemma occupied_holds p : u_occ u !! p = Some true -> exists v, holds_at u p v /\ u_find kf hash keq u (kf v) = Ret (Z.of_nat p).
  Proof using All.
    intros E. destruct parts as (_ & _ & _ & H & _). pose proof (for_all_inv _ _ H p) as M.
    specialize (M ltac:(unfold total_count; apply lookup_lt_Some in E; lia)). unfold values_unique in M. rewrite (occupied_get _ _ E) in M. cbn [obind] in M.
    destruct (u_value u (Z.of_nat p)) as [v| |] eqn:Ev; try discriminate. cbn [obind] in M. destruct (u_find kf hash keq u (kf v)) as [q| |] eqn:Eq; try discriminate. cbn [obind] in M.
    injection M as M. apply Z.eqb_eq in M. subst q. exists v. split; [split; assumption|exact Eq].
  Qed.
  Lemma keq_same (v : V) k k' : keq k k' = true -> keq (kf v) k = keq (kf v) k'.
  Proof using Hk.
    intros E. destruct Hk as (kr & ks & kt). destruct (keq (kf v) k) eqn:E1, (keq (kf v) k') eqn:E2; auto.
    - rewrite (kt _ _ _ E1 E) in E2. discriminate.
    - rewrite (kt _ _ _ E2 (ks _ _ E)) in E1. discriminate.
  Qed.
  Lemma matches_same p k k' : keq k k' = true -> entry_matches kf keq u p k = entry_matches kf keq u p k'.
  Proof using Hk.
    intros E. unfold entry_matches. destruct (u_occupied u p) as [[]| |]; try reflexivity. cbn [obind]. destruct (u_value u p) as [v| |]; try reflexivity. cbn [obind]. rewrite (keq_same v _ _ E). reflexivity.
  Qed.
  Lemma find_same k k' : keq k k' = true -> u_find kf hash keq u k = u_find kf hash keq u k'.
  Proof using Hk Hh.
    intros E. unfold u_find, u_bucket. rewrite (Hh _ _ E). destruct (fibonacci_hashing (hash k') (u_bc u)) as [r| |]; try reflexivity. cbn [obind].
    destruct ((0 <=? r) && (r <? u_bc u)); [|reflexivity]. cbn [obind]. rewrite (matches_same r _ _ E). destruct (entry_matches kf keq u r k') as [[]| |]; try reflexivity. cbn [obind].
    generalize (walk_fuel u). intros fuel. revert r. induction fuel as [|fuel IH]; intros r; [reflexivity|]. cbn [find_loop]. destruct (zat (u_off u) r) as [o| |]; try reflexivity. cbn [obind].
    destruct (o =? 0); [reflexivity|]. rewrite (matches_same (r + o) _ _ E). destruct (entry_matches kf keq u (r + o) k') as [[]| |]; try reflexivity. cbn [obind]. apply IH.
  Qed.
  Lemma stored_found k p v : holds_at u p v -> keq (kf v) k = true -> u_find kf hash keq u k = Ret (Z.of_nat p).
  Proof using All.
    intros [E1 E2] E. rewrite <- (find_same _ _ E). destruct (occupied_holds p E1) as (w & [_ Ew] & F). rewrite E2 in Ew. injection Ew as <-. exact F.
  Qed.
  Lemma no_match k p : (forall q v, holds_at u q v -> keq (kf v) k = false) -> (p < n)%nat -> entry_matches kf keq u (Z.of_nat p) k = Ret false.
  Proof using All.
    intros H Hp. unfold entry_matches. destruct (lookup_lt_is_Some_2 (u_occ u) p Hp) as [b Eb]. rewrite (occupied_get _ _ Eb). cbn [obind]. destruct b; [|reflexivity].
    destruct (occupied_holds p Eb) as (v & Hp2 & _). destruct Hp2 as [_ Ev]. rewrite Ev. cbn [obind]. rewrite (H p v); [reflexivity|]. split; assumption.
  Qed.
  Lemma find_none k l : (forall q v, holds_at u q v -> keq (kf v) k = false) -> forall p, entries (u_off u) p l -> forall fuel, (length l <= fuel)%nat ->
    find_loop kf keq fuel u k (Z.of_nat p) = Ret (total_count u).
  Proof using All.
    intros H p He. induction He as [p E|p o q l E N Q He IH]; intros fuel Hf; (destruct fuel as [|fuel]; [cbn in Hf; lia|]); cbn [find_loop].
    - unfold zat. rewrite (proj2 (Z.leb_le _ _)), Nat2Z.id, E by lia. reflexivity.
    - unfold zat. rewrite (proj2 (Z.leb_le _ _)), Nat2Z.id, E by lia. cbn [obind]. rewrite (proj2 (Z.eqb_neq _ _)) by exact N. rewrite <- Q.
      rewrite (no_match k q H) by (destruct Hu as (_ & _ & L); pose proof (inside _ _ E); lia). cbn [obind]. apply IH. cbn in Hf. lia.
  Qed.
  Lemma absent_not_found k : (forall q v, holds_at u q v -> keq (kf v) k = false) -> u_find kf hash keq u k = Ret (total_count u).
  Proof using All.
    intros H. destruct Hu as (Hb & Hm & L). destruct (fib_range (hash k) (u_bc u) ltac:(lia)) as (r & Er & Hr).
    unfold u_find, u_bucket. rewrite Er. cbn [obind]. rewrite (proj2 (Z.leb_le _ _)), (proj2 (Z.ltb_lt _ _)) by lia. cbn [andb obind].
    destruct separate as (lists & LL & He & ND). destruct (lookup_lt_is_Some_2 lists (Z.to_nat r) ltac:(lia)) as [l El]. pose proof (He _ _ El) as El2.
    assert (Ez : r = Z.of_nat (Z.to_nat r)) by lia. set (p := Z.to_nat r) in *. rewrite Ez. unfold total_count in *. rewrite (no_match k p H) by lia. cbn [obind].
    apply find_none with (l := l); [exact H|exact El2|]. unfold walk_fuel.
    assert (Hin : forall x, x ∈ l -> (x < length (u_off u))%nat).
    { clear - El2. induction El2 as [p E|p o q l E N Q He IH]; intros x [->|Hx]%elem_of_cons; try (apply lookup_lt_Some in E; exact E); [inversion Hx|auto]. }
    assert (NDl : NoDup l) by (apply (nodup_own lists ND p l El)).
    assert (Hs : l ⊆+ seq 0 (length (u_off u))) by (apply NoDup_submseteq; [exact NDl|]; intros x Hx; apply elem_of_seq; specialize (Hin x Hx); lia).
    apply submseteq_length in Hs. rewrite seq_length in Hs. lia.
  Qed.
  Lemma keys_differ p q v w : holds_at u p v -> holds_at u q w -> keq (kf v) (kf w) = true -> p = q.
  Proof using All.
    intros Hp Hq E. pose proof (stored_found (kf w) p v Hp E) as F1. destruct Hk as (kr & _). pose proof (stored_found (kf w) q w Hq (kr _)) as F2. rewrite F1 in F2. injection F2 as F2. lia.
  Qed.
  Lemma size_counts : u_size u = Ret (bcount (u_occ u)).
  Proof using All.
    destruct parts as (_ & _ & _ & _ & H & _). unfold u_occupied_count_valid in H. destruct (u_size u) as [s| |]; try discriminate. cbn [obind] in H. injection H as H. apply Z.eqb_eq in H. congruence.
  Qed.
End valid.
