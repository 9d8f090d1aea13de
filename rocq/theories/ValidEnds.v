(** valid() comes to an end in every state of the container's memory, and what it decides *)
From Verif Require Import Base Conc SlotModel Lifetime VectorModel UnorderedModel UnorderedSpec HashProofs UnorderedProofs CollectSpec LoopModel LoopSpec LoopProofs ValidSpec ValidProofs.

Lemma zat_ex {A} (l : list A) i : 0 <= i < Z.of_nat (length l) -> exists x, zat l i = Ret x.
Proof. intros H. destruct (lookup_lt_is_Some_2 l (Z.to_nat i)) as [x Hx]; [lia|]. exists x. unfold zat. rewrite (proj2 (Z.leb_le _ _)), Hx by lia. reflexivity. Qed.
Lemma fold_total (f : Z -> outcome bool) (l : list nat) : (forall i, i ∈ l -> exists b, f (Z.of_nat i) = Ret b) -> forall a, exists b,
  fold_left (fun acc i => let! a := acc in let! b := f (Z.of_nat i) in Ret (a && b)) l (Ret a) = Ret b /\ (b = true <-> a = true /\ forall i, i ∈ l -> f (Z.of_nat i) = Ret true).
Proof.
  induction l as [|i l IH]; intros H a; cbn [fold_left].
  - exists a. split; [reflexivity|]. split; [intros ->; split; [reflexivity|intros j Hj; inversion Hj]|tauto].
  - destruct (H i) as [b Eb]; [left|]. cbn [obind]. rewrite Eb. cbn [obind]. destruct (IH ltac:(intros j Hj; apply H; right; exact Hj) (a && b)) as (b' & E' & I'). exists b'. split; [exact E'|].
    rewrite I', andb_true_iff. split.
    + intros [[-> ->] H2]. split; [reflexivity|]. intros j [->|Hj]%elem_of_cons; auto.
    + intros [-> H2]. pose proof (H2 i ltac:(left)) as Q. rewrite Eb in Q. injection Q as ->. split; [auto|]. intros j Hj. apply H2. right. exact Hj.
Qed.
Lemma for_all_total (m : nat) f : (forall i, (i < m)%nat -> exists b, f (Z.of_nat i) = Ret b) -> exists b, for_all (Z.of_nat m) f = Ret b /\ (b = true <-> forall i, (i < m)%nat -> f (Z.of_nat i) = Ret true).
Proof.
  intros H. unfold for_all. rewrite Nat2Z.id. destruct (fold_total f (seq 0 m)) with (a := true) as (b & E & I).
  - intros i Hi. apply elem_of_seq in Hi. apply H. lia.
  - exists b. split; [exact E|]. rewrite I. split; [intros [_ H2] i Hi; apply H2; apply elem_of_seq; lia|]. intros H2. split; [reflexivity|]. intros i Hi. apply elem_of_seq in Hi. apply H2. lia.
Qed.
Lemma oand_total (a b : outcome bool) (P Q : Prop) : (exists x, a = Ret x /\ (x = true <-> P)) -> (P -> exists y, b = Ret y /\ (y = true <-> Q)) ->
  exists z, oand a b = Ret z /\ (z = true <-> P /\ Q).
Proof.
  intros (x & -> & Hx) Hb. unfold oand. cbn [obind]. destruct x.
  - destruct Hb as (y & -> & Hy); [apply Hx; reflexivity|]. exists y. split; [reflexivity|]. rewrite Hy. split; [intros H; split; [apply Hx; reflexivity|exact H]|tauto].
  - exists false. split; [reflexivity|]. split; [discriminate|]. intros [H _]. apply Hx in H. discriminate.
Qed.

Section ends.
  Context {K V : Type} (kf : V -> K) (hash : K -> Z) (keq : K -> K -> bool) (ord : nat -> list nat).
  Context (Ho : any_order ord) (u : utab V) (Hu : arrays_ok u) (Hc : 0 <= u_count u <= total_count u).
  Context (Hval : forall p, u_occ u !! p = Some true -> exists v, u_value u (Z.of_nat p) = Ret v).
  Notation n := (length (u_occ u)).

  Lemma inside_total : exists b, for_all (total_count u) (offset_inside_range u) = Ret b /\ (b = true <-> links_inside (u_off u)).
  Proof.
    destruct Hu as (Hb & Hm & L). unfold total_count. destruct (for_all_total n (offset_inside_range u)) as (b & E & I).
    - intros i Hi. unfold offset_inside_range. destruct (zat_ex (u_off u) (Z.of_nat i)) as [o Eo]; [lia|]. rewrite Eo. cbn [obind]. eauto.
    - exists b. split; [exact E|]. rewrite I. unfold links_inside. split.
      + intros H p o Hp. pose proof Hp as Lp. apply lookup_lt_Some in Lp. specialize (H p ltac:(lia)). unfold offset_inside_range in H. rewrite (zat_nat _ _ _ Hp) in H. cbn [obind] in H. injection H as H.
        apply negb_true_iff, orb_false_iff in H as [H1 H2]. apply Z.ltb_ge in H1. apply Z.leb_gt in H2. unfold total_count in H2. rewrite L. lia.
      + intros H i Hi. unfold offset_inside_range. destruct (lookup_lt_is_Some_2 (u_off u) i) as [o Eo]; [lia|]. rewrite (zat_nat _ _ _ Eo). cbn [obind]. specialize (H _ _ Eo). unfold total_count. f_equal.
        rewrite (proj2 (Z.ltb_ge _ _)), (proj2 (Z.leb_gt _ _)) by lia. reflexivity.
  Qed.

  Definition zeros (flags : list Z) : nat := length (filter (fun x => x = 0) flags).
  Lemma zeros_insert flags q : flags !! q = Some 0 -> zeros flags = S (zeros (<[q := 1]> flags)).
  Proof.
    unfold zeros. revert q. induction flags as [|x flags IH]; intros q H; [discriminate|]. destruct q as [|q]; cbn in H.
    - injection H as ->. cbn [insert list_insert]. rewrite filter_cons_True by reflexivity. rewrite filter_cons_False by lia. reflexivity.
    - change (<[S q := 1]> (x :: flags)) with (x :: <[q := 1]> flags). specialize (IH _ H). destruct (decide (x = 0)); [rewrite !filter_cons_True by assumption; cbn [length]; lia|rewrite !filter_cons_False by assumption; exact IH].
  Qed.
  Lemma zeros_le flags : (zeros flags <= length flags)%nat.
  Proof. apply filter_length. Qed.
  Definition flags_ok (flags : list Z) : Prop := length flags = n /\ Forall (fun x => 0 <= x) flags.
  Lemma visit_total (Hin : links_inside (u_off u)) fuel : forall p flags, (p < n)%nat -> flags_ok flags -> (zeros flags < fuel)%nat ->
    exists flags', visit_loop fuel u (Z.of_nat p) flags = Ret flags' /\ flags_ok flags'.
  Proof using All.
    destruct Hu as (Hb & Hm & L). induction fuel as [|fuel IH]; intros p flags Hp [F1 F2] Hz; [lia|]. cbn [visit_loop].
    destruct (lookup_lt_is_Some_2 (u_off u) p) as [o Eo]; [lia|]. rewrite (zat_nat _ _ _ Eo). cbn [obind]. destruct (Z.eqb_spec o 0) as [->|N]; [exists flags; split; [reflexivity|split; assumption]|].
    pose proof (Hin _ _ Eo) as Hr. rewrite L in Hr. assert (Eq : Z.of_nat p + o = Z.of_nat (Z.to_nat (Z.of_nat p + o))) by lia. set (q := Z.to_nat (Z.of_nat p + o)) in *. rewrite Eq.
    assert (Hq : (q < n)%nat) by lia. destruct (lookup_lt_is_Some_2 flags q) as [m Em]; [lia|]. rewrite (zat_nat _ _ _ Em). cbn [obind]. rewrite ?Nat2Z.id.
    assert (Hmn : 0 <= m) by (rewrite Forall_lookup in F2; apply (F2 _ _ Em)).
    assert (F : flags_ok (<[q := m + 1]> flags)) by (split; [rewrite insert_length; exact F1|apply Forall_insert; [exact F2|lia]]).
    destruct (Z.ltb_spec 1 (m + 1)); [eauto|]. assert (m = 0) by lia. subst m. apply IH; [exact Hq|exact F|]. pose proof (zeros_insert _ _ Em). change (0 + 1) with 1. lia.
  Qed.
  Lemma visits_total (Hin : links_inside (u_off u)) (l : list nat) : (forall i, i ∈ l -> (i < n)%nat) -> forall flags, flags_ok flags ->
    exists flags', fold_left (fun acc i => let! s := acc in count_visits u i s) l (Ret flags) = Ret flags' /\ flags_ok flags'.
  Proof using All.
    induction l as [|i l IH]; intros Hl flags F; cbn [fold_left]; [eauto|]. cbn [obind]. pose proof (Hl i ltac:(left)) as Hi. destruct F as [F1 F2].
    unfold count_visits at 2. destruct (lookup_lt_is_Some_2 flags i) as [m Em]; [lia|]. rewrite (zat_nat _ _ _ Em). cbn [obind].
    assert (Hmn : 0 <= m) by (rewrite Forall_lookup in F2; apply (F2 _ _ Em)).
    assert (F : flags_ok (<[i := m + 1]> flags)) by (split; [rewrite insert_length; exact F1|apply Forall_insert; [exact F2|lia]]).
    destruct (visit_total Hin (walk_fuel u) i _ Hi F) as (flags' & E & F').
    { unfold walk_fuel. pose proof (zeros_le (<[i:=m + 1]> flags)) as Z. rewrite insert_length in Z. destruct Hu as (_ & _ & L). lia. }
    rewrite E. apply IH; [intros j Hj; apply Hl; right; exact Hj|exact F'].
  Qed.
  Lemma loop_total (Hin : links_inside (u_off u)) : exists b, loop_free ord u = Ret b /\ (b = true <-> lists_separate (u_off u) (Z.to_nat (u_bc u))).
  Proof using All.
    destruct Hu as (Hb & Hm & L). unfold total_count in *. unfold loop_free, u_for_each, total_count. rewrite Nat2Z.id.
    assert (Hl : forall i, i ∈ ord (Z.to_nat (u_bc u)) -> (i < n)%nat) by (intros i Hi; rewrite (Ho _) in Hi; apply elem_of_seq in Hi; lia).
    destruct (visits_total Hin (ord (Z.to_nat (u_bc u))) Hl (replicate n 0)) as (flags & E & F1 & F2).
    { split; [apply replicate_length|]. apply Forall_forall. intros x Hx. apply elem_of_replicate in Hx as [-> _]. lia. }
    rewrite E. cbn [obind]. apply visits_run in E. destruct E as (flags0 & E0 & R). injection E0 as <-.
    assert (Hd : dealt (Z.to_nat (u_bc u)) [ord (Z.to_nat (u_bc u))]) by (unfold dealt; cbn; rewrite app_nil_r; apply Ho).
    assert (Hbc : (Z.to_nat (u_bc u) <= n)%nat) by lia.
    destruct (linv_reach (u_off u) n (Z.to_nat (u_bc u)) L Hin Hbc _ _ R _ (linv_start (u_off u) n (Z.to_nat (u_bc u)) L Hin Hbc [ord (Z.to_nat (u_bc u))] Hd)) as [G I]. cbn [fst snd] in I.
    assert (Hvis : visited [([], VHead)]) by (intros t [->|Ht]%elem_of_cons; [reflexivity|inversion Ht]).
    pose proof (linv_end (u_off u) n _ L Hin Hbc _ _ _ I Hvis) as Hend.
    destruct (for_all_total n (fun i => let! x := zat flags i in Ret (x <=? 1))) as (b & Eb & Ib).
    { intros i Hi. destruct (lookup_lt_is_Some_2 flags i) as [m Em]; [lia|]. rewrite (zat_nat _ _ _ Em). cbn [obind]. eauto. }
    exists b. split; [exact Eb|]. rewrite <- Hend, Ib. unfold visit_result. rewrite forallb_forall. split.
    - intros H x Hx. apply elem_of_list_In, elem_of_list_lookup in Hx as [p Hp]. pose proof Hp as Lp. apply lookup_lt_Some in Lp. specialize (H p ltac:(lia)). rewrite (zat_nat _ _ _ Hp) in H. cbn [obind] in H. injection H as H. exact H.
    - intros H i Hi. destruct (lookup_lt_is_Some_2 flags i) as [m Em]; [lia|]. rewrite (zat_nat _ _ _ Em). cbn [obind]. f_equal. apply H. apply elem_of_list_In, elem_of_list_lookup. eauto.
  Qed.

  Lemma matches_total k p : (p < n)%nat -> exists b, entry_matches kf keq u (Z.of_nat p) k = Ret b.
  Proof using All.
    intros Hp. unfold entry_matches. destruct (lookup_lt_is_Some_2 (u_occ u) p Hp) as [b Eb]. rewrite (occupied_get u _ _ Eb). cbn [obind]. destruct b; [|eauto].
    destruct (Hval p Eb) as [v ->]. cbn [obind]. eauto.
  Qed.
  Lemma find_loop_total k l : forall p, entries (u_off u) p l -> forall fuel, (length l <= fuel)%nat -> exists q, find_loop kf keq fuel u k (Z.of_nat p) = Ret q.
  Proof using All.
    destruct Hu as (Hb & Hm & L). intros p He. induction He as [p E|p o q l E N Q He IH]; intros fuel Hf; (destruct fuel as [|fuel]; [cbn in Hf; lia|]); cbn [find_loop]; rewrite (zat_nat _ _ _ E); cbn [obind]; [eauto|].
    rewrite (proj2 (Z.eqb_neq _ _)) by exact N. rewrite <- Q. assert (Hq : (q < n)%nat) by (rewrite <- L; inversion He; subst; eapply lookup_lt_Some; eassumption).
    destruct (matches_total k q Hq) as [[] ->]; cbn [obind]; [eauto|]. apply IH. cbn in Hf. lia.
  Qed.
  Lemma find_total (Hs : lists_separate (u_off u) (Z.to_nat (u_bc u))) k : exists q, u_find kf hash keq u k = Ret q.
  Proof using All.
    destruct Hu as (Hb & Hm & L). unfold total_count in *. destruct (fib_range (hash k) (u_bc u) ltac:(lia)) as (r & Er & Hr).
    unfold u_find, u_bucket. rewrite Er. cbn [obind]. rewrite (proj2 (Z.leb_le _ _)), (proj2 (Z.ltb_lt _ _)) by lia. cbn [andb obind].
    destruct Hs as (lists & LL & He & ND). destruct (lookup_lt_is_Some_2 lists (Z.to_nat r) ltac:(lia)) as [l El]. pose proof (He _ _ El) as El2.
    assert (Ez : r = Z.of_nat (Z.to_nat r)) by lia. set (p := Z.to_nat r) in *. rewrite Ez. destruct (matches_total k p) as [[] ->]; [lia| |]; cbn [obind]; [eauto|].
    apply find_loop_total with (l := l); [exact El2|]. unfold walk_fuel.
    assert (Hin : forall x, x ∈ l -> (x < length (u_off u))%nat).
    { clear - El2. induction El2 as [p E|p o q l E N Q He IH]; intros x [->|Hx]%elem_of_cons; try (apply lookup_lt_Some in E; exact E); [inversion Hx|auto]. }
    assert (NDl : NoDup l) by (apply (nodup_own lists ND p l El)).
    assert (Hs : l ⊆+ seq 0 (length (u_off u))) by (apply NoDup_submseteq; [exact NDl|]; intros x Hx; apply elem_of_seq; specialize (Hin x Hx); lia).
    apply submseteq_length in Hs. rewrite seq_length in Hs. lia.
  Qed.
  Definition found_in_place : Prop := forall p v, holds_at u p v -> u_find kf hash keq u (kf v) = Ret (Z.of_nat p).
  Lemma unique_total (Hs : lists_separate (u_off u) (Z.to_nat (u_bc u))) : exists b, for_all (total_count u) (values_unique kf hash keq u) = Ret b /\ (b = true <-> found_in_place).
  Proof using All.
    unfold total_count. assert (Q : forall i, (i < n)%nat -> exists b, values_unique kf hash keq u (Z.of_nat i) = Ret b /\ (b = true <-> forall v, holds_at u i v -> u_find kf hash keq u (kf v) = Ret (Z.of_nat i))).
    { intros i Hi. unfold values_unique. destruct (lookup_lt_is_Some_2 (u_occ u) i Hi) as [b Eb]. rewrite (occupied_get u _ _ Eb). cbn [obind]. destruct b.
      - destruct (Hval i Eb) as [v Ev]. rewrite Ev. cbn [obind]. destruct (find_total Hs (kf v)) as [q Eq]. rewrite Eq. cbn [obind]. eexists. split; [reflexivity|]. rewrite Z.eqb_eq. split.
        + intros -> w [_ Ew]. rewrite Ev in Ew. injection Ew as <-. exact Eq.
        + intros H. specialize (H v (conj Eb Ev)). rewrite Eq in H. injection H as ->. reflexivity.
      - exists true. split; [reflexivity|]. split; [|auto]. intros _ v [H _]. congruence. }
    destruct (for_all_total n (values_unique kf hash keq u)) as (b & E & I); [intros i Hi; destruct (Q i Hi) as (b & E & _); eauto|]. exists b. split; [exact E|]. rewrite I. unfold found_in_place. split.
    - intros H p v Hp. assert (Lp : (p < n)%nat) by (destruct Hp as [Hp _]; apply lookup_lt_Some in Hp; exact Hp). destruct (Q p Lp) as (b' & E' & I'). rewrite (H p Lp) in E'. injection E' as <-. apply I'; auto.
    - intros H i Hi. destruct (Q i Hi) as (b' & E' & I'). rewrite E'. f_equal. apply I'. intros v Hv. apply H. exact Hv.
  Qed.
  Definition found_somewhere : Prop := forall p v, holds_at u p v -> u_find kf hash keq u (kf v) <> Ret (total_count u).
  Lemma reachable_total (Hs : lists_separate (u_off u) (Z.to_nat (u_bc u))) : exists b, for_all (total_count u) (value_reachable kf hash keq u) = Ret b /\ (b = true <-> found_somewhere).
  Proof using All.
    change (total_count u) with (Z.of_nat n) at 1. assert (Q : forall i, (i < n)%nat -> exists b, value_reachable kf hash keq u (Z.of_nat i) = Ret b /\ (b = true <-> forall v, holds_at u i v -> u_find kf hash keq u (kf v) <> Ret (total_count u))).
    { intros i Hi. unfold value_reachable. destruct (lookup_lt_is_Some_2 (u_occ u) i Hi) as [b Eb]. rewrite (occupied_get u _ _ Eb). cbn [obind]. destruct b.
      - destruct (Hval i Eb) as [v Ev]. rewrite Ev. cbn [obind]. unfold u_contains. destruct (find_total Hs (kf v)) as [q Eq]. rewrite Eq. cbn [obind]. eexists. split; [reflexivity|]. rewrite negb_true_iff, Z.eqb_neq. split.
        + intros N w [_ Ew]. rewrite Ev in Ew. injection Ew as <-. rewrite Eq. intros [= X]. exact (N X).
        + intros H X. apply (H v (conj Eb Ev)). rewrite Eq, X. reflexivity.
      - exists true. split; [reflexivity|]. split; [|auto]. intros _ v [H _]. congruence. }
    destruct (for_all_total n (value_reachable kf hash keq u)) as (b & E & I); [intros i Hi; destruct (Q i Hi) as (b & E & _); eauto|]. exists b. split; [exact E|]. rewrite I. unfold found_somewhere. split.
    - intros H p v Hp. assert (Lp : (p < n)%nat) by (destruct Hp as [Hp _]; apply lookup_lt_Some in Hp; exact Hp). destruct (Q p Lp) as (b' & E' & I'). rewrite (H p Lp) in E'. injection E' as <-. apply I'; auto.
    - intros H i Hi. destruct (Q i Hi) as (b' & E' & I'). rewrite E'. f_equal. apply I'. intros v Hv. exact (H i v Hv).
  Qed.

  Lemma valid_decides : exists b, u_valid kf hash keq ord u = Ret b /\
    (b = true <-> links_inside (u_off u) /\ lists_separate (u_off u) (Z.to_nat (u_bc u)) /\ found_in_place /\ u_count u = bcount (u_occ u) /\ bcount (u_locks u) = 0 /\ v_valid (u_excess u) = true).
  Proof using All.
    unfold u_valid. rewrite (proj2 (Z.eqb_neq _ _)) by (destruct Hu; lia).
    assert (S1 : forall P : Prop, P -> forall b x, (b = true <-> P) -> oand (Ret b) x = x).
    { intros P HP b x H. apply H in HP. subst b. reflexivity. }
    destruct (oand_total (for_all (total_count u) (offset_inside_range u))
      (oand (loop_free ord u) (oand (for_all (total_count u) (value_reachable kf hash keq u)) (oand (for_all (total_count u) (values_unique kf hash keq u))
        (oand (u_occupied_count_valid u) (oand (Ret (bcount (u_locks u) =? 0)) (Ret (v_valid (u_excess u))))))))
      (links_inside (u_off u)) (lists_separate (u_off u) (Z.to_nat (u_bc u)) /\ found_somewhere /\ found_in_place /\ u_count u = bcount (u_occ u) /\ bcount (u_locks u) = 0 /\ v_valid (u_excess u) = true)) as (b & E & I).
    { apply inside_total. }
    { intros Hin. apply oand_total; [apply loop_total; exact Hin|]. intros Hs. apply oand_total; [apply reachable_total; exact Hs|]. intros _. apply oand_total; [apply unique_total; exact Hs|]. intros _.
      apply oand_total.
      - unfold u_occupied_count_valid, u_size. rewrite (proj2 (Z.leb_le _ _)), (proj2 (Z.leb_le _ _)) by lia. cbn [andb obind]. eexists. split; [reflexivity|]. apply Z.eqb_eq.
      - intros _. apply oand_total; [eexists; split; [reflexivity|apply Z.eqb_eq]|]. intros _. eexists. split; [reflexivity|]. reflexivity. }
    exists b. split; [exact E|]. rewrite I. split; [tauto|]. intros (H1 & H2 & H3 & H4). split; [exact H1|]. split; [exact H2|]. split; [|split; [exact H3|exact H4]].
    intros p v Hp. rewrite (H3 p v Hp). intros [= X]. destruct Hp as [Hp _]. apply lookup_lt_Some in Hp. unfold total_count in X. lia.
  Qed.
End ends.
