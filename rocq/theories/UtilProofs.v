(** Proofs for UtilModel.v *)
From Verif Require Import Base UtilModel UtilSpec VectorModel VectorSpec VectorProps DequeModel DequeSpec DequeProps UnorderedModel UnorderedSpec UnorderedProps.

Lemma limits_exact t : limits_max t = 2 ^ limits_digits t - 1 /\ (signed_type t -> limits_min t = - 2 ^ limits_digits t) /\ (~ signed_type t -> limits_min t = 0) /\
  limits_lowest t = limits_min t /\ (limits_is_signed t = true <-> signed_type t) /\ forall z, value_of_type t z <-> limits_min t <= z <= limits_max t.
Proof.
  assert (Dec : forall t, {signed_type t} + {~ signed_type t}).
  { intros t0. unfold signed_type. assert (D : EqDecision int_type) by (unfold EqDecision, Decision; decide equality). apply (elem_of_list_dec (dec := D)). }
  assert (Hs : limits_is_signed t = true <-> signed_type t).
  { unfold signed_type. rewrite !elem_of_cons, elem_of_nil. destruct t; cbn; (split; [intros H; try discriminate; tauto|intros H; try reflexivity; repeat destruct H as [H|H]; try discriminate H; contradiction]). }
  split; [destruct t; vm_compute; reflexivity|]. split; [intros H; apply Hs in H; destruct t; try discriminate; vm_compute; reflexivity|].
  split; [intros H; destruct t; try reflexivity; exfalso; apply H, Hs; reflexivity|]. split; [destruct t; reflexivity|]. split; [exact Hs|]. intros z.
  assert (G : t <> Tbool -> ((exists pattern, 0 <= pattern < 2 ^ (8 * size_of t) /\ (signed_type t -> z = if pattern <? 2 ^ (8 * size_of t - 1) then pattern else pattern - 2 ^ (8 * size_of t)) /\ (~ signed_type t -> z = pattern)) <-> limits_min t <= z <= limits_max t)).
  { intros Hb. destruct (Dec t) as [Ht|Ht].
    - assert (Hw : limits_min t = - 2 ^ (8 * size_of t - 1) /\ limits_max t = 2 ^ (8 * size_of t - 1) - 1 /\ 2 ^ (8 * size_of t) = 2 * 2 ^ (8 * size_of t - 1)).
      { apply Hs in Ht. destruct t; try discriminate; vm_compute; auto. }
      destruct Hw as (-> & -> & ->). set (h := 2 ^ (8 * size_of t - 1)). split.
      + intros (p & Hp & H1 & _). specialize (H1 Ht). destruct (Z.ltb_spec p h); lia.
      + intros Hz. exists (if z <? 0 then z + 2 * h else z). split; [destruct (Z.ltb_spec z 0); lia|]. split; [intros _|contradiction]. destruct (Z.ltb_spec z 0); [rewrite (proj2 (Z.ltb_ge _ _)) by lia; lia|rewrite (proj2 (Z.ltb_lt _ _)) by lia; lia].
    - assert (Hw : limits_min t = 0 /\ limits_max t = 2 ^ (8 * size_of t) - 1).
      { destruct t; try contradiction; try (vm_compute; auto; fail); exfalso; apply Ht, Hs; reflexivity. }
      destruct Hw as (-> & ->). split.
      + intros (p & Hp & _ & H2). specialize (H2 Ht). lia.
      + intros Hz. exists z. split; [lia|]. split; [contradiction|auto]. }
  destruct t; try (apply G; discriminate). cbn. lia.
Qed.

Lemma hash_int_injective t k1 k2 : value_of_type t k1 -> value_of_type t k2 -> (hash_int t k1 = hash_int t k2 <-> k1 = k2).
Proof.
  intros H1 H2. destruct (limits_exact t) as (_ & _ & _ & _ & _ & Hv). apply Hv in H1, H2. split; [|congruence].
  assert (Hd : - 2 ^ 63 <= limits_min t /\ limits_max t < 2 ^ 64 /\ limits_max t - limits_min t < 2 ^ 64) by (destruct t; vm_compute; repeat split; discriminate || reflexivity).
  unfold hash_int. intros E. pose proof (Z.div_mod k1 (2 ^ 64) ltac:(lia)). pose proof (Z.div_mod k2 (2 ^ 64) ltac:(lia)).
  assert (k1 - k2 = 2 ^ 64 * (k1 / 2 ^ 64 - k2 / 2 ^ 64)) by lia. destruct (Z.lt_trichotomy (k1 / 2 ^ 64) (k2 / 2 ^ 64)) as [H'|[H'|H']]; nia.
Qed.

(** ** IEEE equality *)
Section ieee.
  Context (m e : Z) (Hm : 0 < m) (He : 0 < e).
  Lemma parts u : pattern m e u -> u = (if negative m e u then 2 ^ (m + e) else 0) + exponent m e u * 2 ^ m + fraction m u /\ 0 <= exponent m e u < 2 ^ e /\ 0 <= fraction m u < 2 ^ m.
  Proof using All.
    intros Hu. unfold pattern in Hu. unfold negative, exponent, fraction. pose proof (Z.pow_pos_nonneg 2 m ltac:(lia) ltac:(lia)) as Pm. pose proof (Z.pow_pos_nonneg 2 e ltac:(lia) ltac:(lia)) as Pe.
    rewrite Z.pow_add_r in Hu by lia. rewrite Z.pow_add_r in * by lia. split; [|split; apply Z.mod_pos_bound; lia].
    pose proof (Z.div_mod u (2 ^ m) ltac:(lia)) as D1. pose proof (Z.div_mod (u / 2 ^ m) (2 ^ e) ltac:(lia)) as D2. rewrite Z.div_div in D2 by lia.
    set (q := u / (2 ^ m * 2 ^ e)) in *. assert (Hq : 0 <= q < 2). { unfold q. split; [apply Z.div_pos; nia|]. apply Z.div_lt_upper_bound; [nia|]. lia. }
    assert (Eq : q = if Z.odd q then 1 else 0). { destruct (Z.eq_dec q 0) as [->|]; [reflexivity|]. replace q with 1 by lia. reflexivity. }
    destruct (Z.odd q); rewrite Eq in D2; nia.
  Qed.
  Lemma magnitude_inj u v : pattern m e u -> pattern m e v -> magnitude m e u = magnitude m e v -> exponent m e u = exponent m e v /\ fraction m u = fraction m v.
  Proof using All.
    intros Hu Hv. destruct (parts u Hu) as (_ & Eu & Fu). destruct (parts v Hv) as (_ & Ev & Fv). unfold magnitude.
    generalize dependent (exponent m e u). intros a. generalize dependent (exponent m e v). intros b. generalize dependent (fraction m u). intros f. generalize dependent (fraction m v). intros g. intros Hg Hf Hb Ha.
    pose proof (Z.pow_pos_nonneg 2 m ltac:(lia) ltac:(lia)) as Pm.
    assert (Low : forall a b f g, 0 <= f < 2 ^ m -> 0 <= g < 2 ^ m -> 0 <= a < b -> (if a =? 0 then f else (2 ^ m + f) * 2 ^ (a - 1)) < (if b =? 0 then g else (2 ^ m + g) * 2 ^ (b - 1))).
    { clear -Pm. intros a b f g Hf Hg Hab. rewrite (proj2 (Z.eqb_neq b 0)) by lia. destruct (Z.eqb_spec a 0) as [->|Ha0].
      - pose proof (Z.pow_pos_nonneg 2 (b - 1) ltac:(lia) ltac:(lia)). nia.
      - pose proof (Z.pow_pos_nonneg 2 (a - 1) ltac:(lia) ltac:(lia)). replace (b - 1) with ((a - 1) + 1 + (b - 1 - a)) by lia. rewrite !Z.pow_add_r by lia. pose proof (Z.pow_pos_nonneg 2 (b - 1 - a) ltac:(lia) ltac:(lia)).
        change (2 ^ 1) with 2. nia. }
    intros E. destruct (Z.lt_trichotomy a b) as [H|[->|H]].
    - pose proof (Low a b f g Hf Hg ltac:(lia)). lia.
    - split; [reflexivity|]. destruct (Z.eqb_spec b 0); [exact E|]. pose proof (Z.pow_pos_nonneg 2 (b - 1) ltac:(lia) ltac:(lia)). apply Z.mul_cancel_r in E; lia.
    - pose proof (Low b a g f Hg Hf ltac:(lia)). lia.
  Qed.
  Lemma ieee_eq_bits u v : pattern m e u -> pattern m e v -> ieee_eq m e u v = true -> u = v \/ (is_zero m e u /\ is_zero m e v).
  Proof using All.
    intros Hu Hv. unfold ieee_eq. destruct (is_nan m e u || is_nan m e v); [discriminate|]. destruct (parts u Hu) as (Eu & Bu1 & Bu2). destruct (parts v Hv) as (Ev & Bv1 & Bv2).
    destruct (is_infinite m e u || is_infinite m e v) eqn:Ei.
    - intros H. left. apply andb_prop in H as [H H3]. apply andb_prop in H as [H1 H2]. unfold is_infinite in H1, H2. apply andb_prop in H1 as [H1 H1']. apply andb_prop in H2 as [H2 H2']. apply Z.eqb_eq in H1, H1', H2, H2'. apply eqb_prop in H3.
      rewrite Eu, Ev, H1, H1', H2, H2', H3. reflexivity.
    - intros H. apply Z.eqb_eq in H. unfold number in H.
      assert (Nn : forall u, pattern m e u -> 0 <= magnitude m e u).
      { intros w Hw. destruct (parts w Hw) as (_ & A & B). unfold magnitude. destruct (exponent m e w =? 0); [lia|]. pose proof (Z.pow_nonneg 2 (exponent m e w - 1) ltac:(lia)). pose proof (Z.pow_nonneg 2 m ltac:(lia)). nia. }
      pose proof (Nn u Hu) as Nu. pose proof (Nn v Hv) as Nv.
      assert (Hmag : magnitude m e u = magnitude m e v) by (destruct (negative m e u), (negative m e v); lia).
      destruct (magnitude_inj u v Hu Hv Hmag) as [E1 E2]. destruct (negative m e u) eqn:S1, (negative m e v) eqn:S2; try (left; rewrite Eu, Ev, E1, E2; reflexivity).
      + right. assert (M0 : magnitude m e u = 0) by lia. unfold magnitude in M0. pose proof (Z.pow_pos_nonneg 2 m ltac:(lia) ltac:(lia)).
        destruct (Z.eqb_spec (exponent m e u) 0) as [X|X]; [|pose proof (Z.pow_pos_nonneg 2 (exponent m e u - 1) ltac:(lia) ltac:(lia)); nia].
        rewrite <- E1, <- E2, X, M0 in Ev. rewrite X, M0 in Eu. unfold is_zero. split; [right|left]; lia.
      + right. assert (M0 : magnitude m e u = 0) by lia. unfold magnitude in M0. pose proof (Z.pow_pos_nonneg 2 m ltac:(lia) ltac:(lia)).
        destruct (Z.eqb_spec (exponent m e u) 0) as [X|X]; [|pose proof (Z.pow_pos_nonneg 2 (exponent m e u - 1) ltac:(lia) ltac:(lia)); nia].
        rewrite <- E1, <- E2, X, M0 in Ev. rewrite X, M0 in Eu. unfold is_zero. split; [left|right]; lia.
  Qed.
End ieee.

(** ** insert iterators *)
Lemma in_order_seq {V} (xs : list V) : in_order (seq 0 (length xs)) xs = xs.
Proof.
  unfold in_order. assert (H : forall k ys, omap (fun i => (ys ++ xs) !! i) (seq k (length xs)) = omap (fun i => (ys ++ xs) !! i) (seq k (length xs))) by reflexivity. clear H.
  assert (G : forall l ys : list V, omap (fun i => (ys ++ l) !! i) (seq (length ys) (length l)) = l).
  { induction l as [|x l IH]; intros ys; [reflexivity|]. cbn [length seq omap list_omap]. rewrite lookup_app_r, Nat.sub_diag by lia. cbn. f_equal.
    specialize (IH (ys ++ [x])). rewrite app_length in IH. cbn in IH. rewrite Nat.add_1_r in IH. rewrite <- app_assoc in IH. exact IH. }
  exact (G xs []).
Qed.
Lemma in_order_perm {V} (xs : list V) order : order ≡ₚ seq 0 (length xs) -> in_order order xs ≡ₚ xs.
Proof.
  intros H. transitivity (in_order (seq 0 (length xs)) xs); [|rewrite in_order_seq; reflexivity]. unfold in_order. rewrite H. reflexivity.
Qed.
Section inserter.
  Context {C V R : Type} (op : C -> V -> outcome (C * R)).
  Fixpoint assign_all (c : C) (xs : list V) : outcome (C * list R) :=
    match xs with [] => Ret (c, []) | x :: xs => let! (c1, r) := op c x in let! (c2, rs) := assign_all c1 xs in Ret (c2, r :: rs) end.
  Lemma fold_stuck (f : nat -> C -> outcome C) o l : (forall c, o <> Ret c) -> fold_left (fun acc i => let! c := acc in f i c) l o = o.
  Proof using. intros H. induction l as [|i l IH]; [reflexivity|]. cbn [fold_left]. destruct o; [exfalso; eapply H; reflexivity|exact IH|exact IH]. Qed.
  Lemma copy_assign order xs : (forall i, i ∈ order -> (i < length xs)%nat) -> forall c, copy_to_inserter op order xs c = (let! (c', _) := assign_all c (in_order order xs) in Ret c').
  Proof using.
    unfold copy_to_inserter, in_order. induction order as [|i order IH]; intros Hi c; [reflexivity|]. cbn [fold_left omap list_omap].
    destruct (xs !! i) as [x|] eqn:Ex; [|apply lookup_ge_None in Ex; specialize (Hi i ltac:(left)); lia]. cbn [assign_all obind]. unfold proxy_assign at 2.
    destruct (op c x) as [[c1 r]| |]; cbn [obind].
    - rewrite IH by (intros j Hj; apply Hi; right; exact Hj). destruct (assign_all c1 _) as [[c2 rs]| |]; reflexivity.
    - rewrite (fold_stuck (fun i c => match xs !! i with Some x => proxy_assign op c x | None => UB end)) by discriminate. reflexivity.
    - rewrite (fold_stuck (fun i c => match xs !! i with Some x => proxy_assign op c x | None => UB end)) by discriminate. reflexivity.
  Qed.
End inserter.

Lemma vec_run_app {T} opt ord (ops1 ops2 : list (vop T)) : forall v, vec_run opt ord v (ops1 ++ ops2) = (let! (v1, r1) := vec_run opt ord v ops1 in let! (v2, r2) := vec_run opt ord v1 ops2 in Ret (v2, r1 ++ r2)).
Proof.
  induction ops1 as [|op ops1 IH]; intros v; cbn [app vec_run obind]; [destruct (vec_run opt ord v ops2) as [[? ?]| |]; reflexivity|].
  destruct (vec_step opt ord v op) as [[v1 r]| |]; cbn [obind]; [|reflexivity|reflexivity]. rewrite IH. destruct (vec_run opt ord v1 ops1) as [[v2 r2]| |]; cbn [obind]; try reflexivity.
  destruct (vec_run opt ord v2 ops2) as [[v3 r3]| |]; reflexivity.
Qed.
Lemma vec_run_push {T} opt ord (xs : list T) : forall v, vec_run opt ord v (VPush <$> xs) = (let! (v', bs) := assign_all v_push_back v xs in Ret (v', RBool <$> bs)).
Proof.
  induction xs as [|x xs IH]; intros v; [reflexivity|]. rewrite fmap_cons. cbn [vec_run vec_step assign_all]. destruct (v_push_back v x) as [[v1 b]| |]; cbn [obind]; try reflexivity.
  rewrite IH. destruct (assign_all v_push_back v1 xs) as [[v2 bs]| |]; reflexivity.
Qed.
Lemma spec_vrun_app {T} cap (ops1 ops2 : list (vop T)) : forall l, spec_vrun cap l (ops1 ++ ops2) = (let! (v1, r1) := spec_vrun cap l ops1 in let! (v2, r2) := spec_vrun cap v1 ops2 in Ret (v2, r1 ++ r2)).
Proof.
  induction ops1 as [|op ops1 IH]; intros v; cbn [app spec_vrun obind]; [destruct (spec_vrun cap v ops2) as [[? ?]| |]; reflexivity|].
  destruct (spec_vstep cap v op) as [[v1 r]| |]; cbn [obind]; [|reflexivity|reflexivity]. rewrite IH. destruct (spec_vrun cap v1 ops1) as [[v2 r2]| |]; cbn [obind]; try reflexivity.
  destruct (spec_vrun cap v2 ops2) as [[v3 r3]| |]; reflexivity.
Qed.
Lemma spec_vrun_push {T} cap (xs : list T) : forall l, Z.of_nat (length l) <= cap -> exists rs, spec_vrun cap l (VPush <$> xs) = Ret (l ++ take (Z.to_nat cap - length l) xs, rs).
Proof.
  induction xs as [|x xs IH]; intros l Hl; [exists []; rewrite take_nil, app_nil_r; reflexivity|]. rewrite fmap_cons. cbn [spec_vrun spec_vstep]. destruct (Z.ltb_spec (Z.of_nat (length l)) cap); cbn [obind].
  - destruct (IH (l ++ [x])) as [rs E]; [rewrite app_length; cbn [length]; lia|]. rewrite E. cbn [obind]. eexists. rewrite app_length. cbn [length]. replace (Z.to_nat cap - length l)%nat with (S (Z.to_nat cap - (length l + 1))) by lia. cbn [take]. rewrite <- app_assoc. reflexivity.
  - destruct (IH l Hl) as [rs E]. rewrite E. cbn [obind]. eexists. replace (Z.to_nat cap - length l)%nat with O by lia. reflexivity.
Qed.
Lemma spec_vrun_bound {T} cap (ops : list (vop T)) : forall l l' rs, Z.of_nat (length l) <= cap -> spec_vrun cap l ops = Ret (l', rs) -> Z.of_nat (length l') <= cap.
Proof.
  induction ops as [|op ops IH]; intros l l' rs Hl; cbn [spec_vrun]; [intros [= <- _]; exact Hl|]. destruct (spec_vstep cap l op) as [[l1 r]| |] eqn:E; cbn [obind]; try discriminate.
  destruct (spec_vrun cap l1 ops) as [[l2 r2]| |] eqn:E2; cbn [obind]; try discriminate. intros [= <- _]. eapply IH; [|exact E2].
  clear -Hl E. assert (Hr : Z.of_nat (length (removelast l)) <= cap). { destruct l as [|x l] using rev_ind; [exact Hl|]. rewrite removelast_last. rewrite app_length in Hl. lia. }
  destruct op; cbn [spec_vstep] in E; unfold spec_get in E; repeat case_match; try discriminate; injection E as <- _; try exact Hl; try exact Hr; rewrite ?app_length, ?take_length; cbn [length]; try lia.
  all: try (apply andb_prop in H as [H H']; lia).
Qed.

Lemma back_inserter_vector (T : Type) opt ord : (forall n, ord n ≡ₚ seq 0 n) -> forall cap (ops : list (vop T)), 0 < cap <= INT_MAX -> (forall op, op ∈ ops -> op_fits cap op) ->
  forall l rs, spec_vrun cap [] ops = Ret (l, rs) -> forall xs order, order ≡ₚ seq 0 (length xs) ->
  exists v0 v v', vec_create cap = Ret v0 /\ vec_run opt ord v0 ops = Ret (v, rs) /\ v_range v = Ret l /\
    copy_to_inserter v_push_back order xs v = Ret v' /\ v_range v' = Ret (l ++ take (Z.to_nat cap - length l) (in_order order xs)) /\ v_valid v' = true.
Proof.
  intros Hord cap ops Hcap Hops l rs Hs xs order Hor.
  assert (Hl : Z.of_nat (length l) <= cap) by (eapply spec_vrun_bound; [|exact Hs]; cbn; lia).
  destruct (spec_vrun_push cap (in_order order xs) l Hl) as [rs2 E2].
  destruct (C18_vector_is_bounded_list T opt ord Hord cap ops Hcap Hops) as (v0 & Ec & H1). rewrite Hs in H1. destruct H1 as (v & Er & _ & Hrange).
  destruct (C18_vector_is_bounded_list T opt ord Hord cap (ops ++ (VPush <$> in_order order xs)) Hcap) as (v0' & Ec' & H2).
  { intros op Hop. apply elem_of_app in Hop as [Hop|Hop]; [apply Hops; exact Hop|]. apply elem_of_list_fmap in Hop as (x & -> & _). exact I. }
  rewrite Ec in Ec'. injection Ec' as <-. rewrite spec_vrun_app, Hs in H2. cbn [obind] in H2. rewrite E2 in H2. cbn [obind] in H2. destruct H2 as (v' & Er' & Hv' & Hrange').
  rewrite vec_run_app, Er in Er'. cbn [obind] in Er'. rewrite vec_run_push in Er'.
  exists v0, v, v'. split; [exact Ec|]. split; [exact Er|]. split; [exact Hrange|]. split; [|auto].
  rewrite copy_assign by (intros i Hi; rewrite Hor in Hi; apply elem_of_seq in Hi; lia).
  destruct (assign_all v_push_back v (in_order order xs)) as [[v2 bs]| |]; cbn [obind] in *; try discriminate. injection Er' as -> _. reflexivity.
Qed.

(** deque *)
Lemma deq_run_app {T} opt ord (ops1 ops2 : list (dop T)) : forall v, deq_run opt ord v (ops1 ++ ops2) = (let! (v1, r1) := deq_run opt ord v ops1 in let! (v2, r2) := deq_run opt ord v1 ops2 in Ret (v2, r1 ++ r2)).
Proof.
  induction ops1 as [|op ops1 IH]; intros v; cbn [app deq_run obind]; [destruct (deq_run opt ord v ops2) as [[? ?]| |]; reflexivity|].
  destruct (deq_step opt ord v op) as [[v1 r]| |]; cbn [obind]; [|reflexivity|reflexivity]. rewrite IH. destruct (deq_run opt ord v1 ops1) as [[v2 r2]| |]; cbn [obind]; try reflexivity.
  destruct (deq_run opt ord v2 ops2) as [[v3 r3]| |]; reflexivity.
Qed.
Lemma spec_drun_app {T} cap (ops1 ops2 : list (dop T)) : forall l, spec_drun cap l (ops1 ++ ops2) = (let! (v1, r1) := spec_drun cap l ops1 in let! (v2, r2) := spec_drun cap v1 ops2 in Ret (v2, r1 ++ r2)).
Proof.
  induction ops1 as [|op ops1 IH]; intros v; cbn [app spec_drun obind]; [destruct (spec_drun cap v ops2) as [[? ?]| |]; reflexivity|].
  destruct (spec_dstep cap v op) as [[v1 r]| |]; cbn [obind]; [|reflexivity|reflexivity]. rewrite IH. destruct (spec_drun cap v1 ops1) as [[v2 r2]| |]; cbn [obind]; try reflexivity.
  destruct (spec_drun cap v2 ops2) as [[v3 r3]| |]; reflexivity.
Qed.
Lemma deq_run_push_front {T} opt ord (xs : list T) : forall v, deq_run opt ord v (DPushFront <$> xs) = (let! (v', bs) := assign_all d_push_front v xs in Ret (v', RBool <$> bs)).
Proof.
  induction xs as [|x xs IH]; intros v; [reflexivity|]. rewrite fmap_cons. cbn [deq_run deq_step assign_all]. destruct (d_push_front v x) as [[v1 b]| |]; cbn [obind]; try reflexivity.
  rewrite IH. destruct (assign_all d_push_front v1 xs) as [[v2 bs]| |]; reflexivity.
Qed.
Lemma deq_run_push_back {T} opt ord (xs : list T) : forall v, deq_run opt ord v (DPushBack <$> xs) = (let! (v', bs) := assign_all d_push_back v xs in Ret (v', RBool <$> bs)).
Proof.
  induction xs as [|x xs IH]; intros v; [reflexivity|]. rewrite fmap_cons. cbn [deq_run deq_step assign_all]. destruct (d_push_back v x) as [[v1 b]| |]; cbn [obind]; try reflexivity.
  rewrite IH. destruct (assign_all d_push_back v1 xs) as [[v2 bs]| |]; reflexivity.
Qed.
Lemma spec_drun_push_front {T} cap (xs : list T) : forall l, Z.of_nat (length l) <= cap -> exists rs, spec_drun cap l (DPushFront <$> xs) = Ret (rev (take (Z.to_nat cap - length l) xs) ++ l, rs).
Proof.
  induction xs as [|x xs IH]; intros l Hl; [exists []; rewrite take_nil; reflexivity|]. rewrite fmap_cons. cbn [spec_drun spec_dstep]. destruct (Z.ltb_spec (Z.of_nat (length l)) cap); cbn [obind].
  - destruct (IH (x :: l)) as [rs E]; [cbn [length]; lia|]. rewrite E. cbn [obind]. eexists. cbn [length]. replace (Z.to_nat cap - length l)%nat with (S (Z.to_nat cap - S (length l))) by lia. cbn [take rev]. rewrite <- app_assoc. reflexivity.
  - destruct (IH l Hl) as [rs E]. rewrite E. cbn [obind]. eexists. replace (Z.to_nat cap - length l)%nat with O by lia. reflexivity.
Qed.
Lemma spec_drun_push_back {T} cap (xs : list T) : forall l, Z.of_nat (length l) <= cap -> exists rs, spec_drun cap l (DPushBack <$> xs) = Ret (l ++ take (Z.to_nat cap - length l) xs, rs).
Proof.
  induction xs as [|x xs IH]; intros l Hl; [exists []; rewrite take_nil, app_nil_r; reflexivity|]. rewrite fmap_cons. cbn [spec_drun spec_dstep]. destruct (Z.ltb_spec (Z.of_nat (length l)) cap); cbn [obind].
  - destruct (IH (l ++ [x])) as [rs E]; [rewrite app_length; cbn [length]; lia|]. rewrite E. cbn [obind]. eexists. rewrite app_length. cbn [length]. replace (Z.to_nat cap - length l)%nat with (S (Z.to_nat cap - (length l + 1))) by lia. cbn [take]. rewrite <- app_assoc. reflexivity.
  - destruct (IH l Hl) as [rs E]. rewrite E. cbn [obind]. eexists. replace (Z.to_nat cap - length l)%nat with O by lia. reflexivity.
Qed.
Lemma spec_drun_bound {T} cap (ops : list (dop T)) : forall l l' rs, Z.of_nat (length l) <= cap -> spec_drun cap l ops = Ret (l', rs) -> Z.of_nat (length l') <= cap.
Proof.
  induction ops as [|op ops IH]; intros l l' rs Hl; cbn [spec_drun]; [intros [= <- _]; exact Hl|]. destruct (spec_dstep cap l op) as [[l1 r]| |] eqn:E; cbn [obind]; try discriminate.
  destruct (spec_drun cap l1 ops) as [[l2 r2]| |] eqn:E2; cbn [obind]; try discriminate. intros [= <- _]. eapply IH; [|exact E2].
  clear -Hl E. assert (Hr : Z.of_nat (length (removelast l)) <= cap). { destruct l as [|x l] using rev_ind; [exact Hl|]. rewrite removelast_last. rewrite app_length in Hl. lia. }
  destruct op; cbn [spec_dstep] in E; unfold spec_get in E; repeat case_match; try discriminate; injection E as <- _; try exact Hl; try exact Hr; rewrite ?app_length; cbn [length] in *; lia.
Qed.
(** the calls before the copy, the copy, the calls after it *)
Lemma inserter_deque (T : Type) opt ord (front : bool) : (forall n, ord n ≡ₚ seq 0 n) -> forall junk cap (ops more : list (dop T)), 0 < cap <= INT_MAX ->
  (forall op, op ∈ ops ++ more -> dop_fits cap op) -> forall l rs, spec_drun cap [] ops = Ret (l, rs) -> forall xs order, order ≡ₚ seq 0 (length xs) ->
  forall l2 rs2, spec_drun cap (if front then rev (take (Z.to_nat cap - length l) (in_order order xs)) ++ l else l ++ take (Z.to_nat cap - length l) (in_order order xs)) more = Ret (l2, rs2) ->
  exists d0 d d' d2 rs' rs2', deq_create junk cap = Ret d0 /\ deq_run opt ord d0 ops = Ret (d, rs') /\ Forall2 same_result rs' rs /\
    copy_to_inserter (if front then d_push_front else d_push_back) order xs d = Ret d' /\ deq_run opt ord d' more = Ret (d2, rs2') /\ Forall2 same_result rs2' rs2.
Proof.
  intros Hord junk cap ops more Hcap Hops l rs Hs xs order Hor l2 rs2 Hs2.
  assert (Hl : Z.of_nat (length l) <= cap) by (eapply spec_drun_bound; [|exact Hs]; cbn; lia).
  set (P := if front then @DPushFront T else @DPushBack T).
  assert (HP : exists rsp, spec_drun cap l (P <$> in_order order xs) = Ret (if front then rev (take (Z.to_nat cap - length l) (in_order order xs)) ++ l else l ++ take (Z.to_nat cap - length l) (in_order order xs), rsp)).
  { unfold P. destruct front; [apply spec_drun_push_front; exact Hl|apply spec_drun_push_back; exact Hl]. }
  destruct HP as [rsp Hp].
  assert (Hrun : forall v, deq_run opt ord v (P <$> in_order order xs) = (let! (v', bs) := assign_all (if front then d_push_front else d_push_back) v (in_order order xs) in Ret (v', RBool <$> bs))).
  { intros v. unfold P. destruct front; [apply deq_run_push_front|apply deq_run_push_back]. }
  assert (Hall : spec_drun cap [] (ops ++ (P <$> in_order order xs) ++ more) = Ret (l2, rs ++ rsp ++ rs2)).
  { rewrite spec_drun_app, Hs. cbn [obind]. rewrite spec_drun_app, Hp. cbn [obind]. rewrite Hs2. reflexivity. }
  assert (Hfits : forall op, op ∈ ops ++ (P <$> in_order order xs) ++ more -> dop_fits cap op).
  { intros op Hop. rewrite !elem_of_app in Hop. destruct Hop as [Hop|[Hop|Hop]]; [apply Hops, elem_of_app; tauto| |apply Hops, elem_of_app; tauto].
    apply elem_of_list_fmap in Hop as (x & -> & _). unfold P. destruct front; exact I. }
  destruct (C24_deque_is_bounded_deque_partial T opt ord Hord junk cap _ _ _ Hcap Hfits Hall) as (d0 & d & rsx & Ec & Er & Hrs & _).
  rewrite deq_run_app in Er. destruct (deq_run opt ord d0 ops) as [[d1 r1]| |] eqn:E1; cbn [obind] in Er; try discriminate.
  destruct (deq_run opt ord d1 _) as [[d2 r2]| |] eqn:E2; cbn [obind] in Er; try discriminate. injection Er as -> <-.
  rewrite deq_run_app, Hrun in E2. destruct (assign_all _ d1 (in_order order xs)) as [[d3 bs]| |] eqn:E3; cbn [obind] in E2; try discriminate.
  destruct (deq_run opt ord d3 more) as [[d4 r4]| |] eqn:E4; cbn [obind] in E2; try discriminate. injection E2 as -> <-.
  assert (Ecopy : copy_to_inserter (if front then d_push_front else d_push_back) order xs d1 = Ret d3).
  { rewrite copy_assign by (intros i Hi; rewrite Hor in Hi; apply elem_of_seq in Hi; lia). rewrite E3. reflexivity. }
  destruct (C24_deque_is_bounded_deque_partial T opt ord Hord junk cap ops l rs Hcap) as (d0' & d1' & rs1' & Ec' & Er' & Hrs' & _); [intros op Hop; apply Hops, elem_of_app; tauto|exact Hs|].
  rewrite Ec in Ec'. injection Ec' as <-. rewrite E1 in Er'. injection Er' as <- <-.
  exists d0, d1, d3, d, r1, r4. repeat (split; [assumption|]).
  apply Forall2_app_inv in Hrs as [_ Hrs]; [|apply (Forall2_length _ _ _ Hrs')]. apply Forall2_app_inv in Hrs as [_ Hrs]; [exact Hrs|].
  apply Forall2_length in Hrs. rewrite !app_length in Hrs.
  assert (length r4 = length rs2); [|lia].
  assert (length r4 = length more) as ->.
  { clear -E4. revert d3 d r4 E4. induction more as [|op more IH]; intros d3 d r4; cbn [deq_run]; [intros [= _ <-]; reflexivity|]. destruct (deq_step opt ord d3 op) as [[x y]| |]; cbn [obind]; try discriminate.
    destruct (deq_run opt ord x more) as [[x2 y2]| |] eqn:E; cbn [obind]; try discriminate. intros [= _ <-]. cbn [length]. f_equal. eapply IH, E. }
  revert Hs2. generalize (if front then rev (take (Z.to_nat cap - length l) (in_order order xs)) ++ l else l ++ take (Z.to_nat cap - length l) (in_order order xs)).
  clear. revert l2 rs2. induction more as [|op more IH]; intros l2 rs2 l0; cbn [spec_drun]; [intros [= _ <-]; reflexivity|]. destruct (spec_dstep cap l0 op) as [[x y]| |]; cbn [obind]; try discriminate.
  destruct (spec_drun cap x more) as [[x2 y2]| |] eqn:E; cbn [obind]; try discriminate. intros [= _ <-]. cbn [length]. f_equal. eapply IH, E.
Qed.

(** unordered *)
Section un.
  Context {K V : Type} (kf : V -> K) (hash : K -> Z) (keq : K -> K -> bool) (opt : bool) (ord : nat -> list nat).
  Lemma u_run_app fuel ops1 ops2 : forall u, u_run kf hash keq opt ord fuel u (ops1 ++ ops2) = (let! (u1, r1) := u_run kf hash keq opt ord fuel u ops1 in let! (u2, r2) := u_run kf hash keq opt ord fuel u1 ops2 in Ret (u2, r1 ++ r2)).
  Proof using.
    induction ops1 as [|op ops1 IH]; intros v; cbn [app u_run obind]; [destruct (u_run kf hash keq opt ord fuel v ops2) as [[? ?]| |]; reflexivity|].
    destruct (u_step kf hash keq opt ord fuel v op) as [[v1 r]| |]; cbn [obind]; [|reflexivity|reflexivity]. rewrite IH. destruct (u_run kf hash keq opt ord fuel v1 ops1) as [[v2 r2]| |]; cbn [obind]; try reflexivity.
    destruct (u_run kf hash keq opt ord fuel v2 ops2) as [[v3 r3]| |]; reflexivity.
  Qed.
  Local Notation insert_op := (insert_op kf hash keq).
  Lemma u_run_inserts fuel xs : forall u u' rs, u_run kf hash keq opt ord fuel u (UInsert <$> xs) = Ret (u', rs) -> exists bs, assign_all (insert_op fuel) u xs = Ret (u', bs).
  Proof using.
    induction xs as [|x xs IH]; intros u u' rs; [intros [= -> _]; exists []; reflexivity|]. rewrite fmap_cons. cbn [u_run u_step assign_all]. unfold insert_op at 1.
    destruct (u_insert kf hash keq fuel u x) as [[[u1 p] ok]| |]; cbn [obind]; try discriminate. destruct (deref u1 p) as [o| |]; cbn [obind]; try discriminate.
    destruct (u_run kf hash keq opt ord fuel u1 _) as [[u2 r2]| |] eqn:E; cbn [obind]; try discriminate. intros [= <- _]. destruct (IH _ _ _ E) as [bs Eb]. rewrite Eb. cbn [obind]. eexists. reflexivity.
  Qed.
  Lemma spec_urun_app bucket mx ops1 ops2 : forall M rs M', spec_urun kf keq bucket mx M (ops1 ++ ops2) rs M' -> exists rs1 rs2 M1, rs = rs1 ++ rs2 /\ length rs1 = length ops1 /\ spec_urun kf keq bucket mx M ops1 rs1 M1 /\ spec_urun kf keq bucket mx M1 ops2 rs2 M'.
  Proof using.
    induction ops1 as [|op ops1 IH]; intros M rs M' H; [exists [], rs, M; cbn [spec_urun length]; auto|]. cbn [app spec_urun] in H. destruct rs as [|r rs]; [contradiction|]. destruct H as (M1 & H1 & H2).
    destruct (IH _ _ _ H2) as (rs1 & rs2 & M2 & -> & Hl & Ha & Hb). exists (r :: rs1), rs2, M2. cbn [app length spec_urun]. split; [reflexivity|]. split; [congruence|]. split; [exists M1; auto|exact Hb].
  Qed.
  Lemma spec_urun_inserts bucket mx xs : forall M rs M', spec_urun kf keq bucket mx M (UInsert <$> xs) rs M' -> spec_inserts kf keq M xs M'.
  Proof using.
    induction xs as [|x xs IH]; intros M rs M'; cbn [fmap list_fmap spec_urun spec_inserts]; [destruct rs; [auto|contradiction]|]. destruct rs as [|r rs]; [contradiction|]. intros (M1 & H1 & H2).
    destruct r; cbn [spec_ustep] in H1; try contradiction. eexists _, _, M1. split; [exact H1|]. eapply IH, H2.
  Qed.
  Lemma u_run_length fuel ops : forall u u' rs, u_run kf hash keq opt ord fuel u ops = Ret (u', rs) -> length rs = length ops.
  Proof using.
    induction ops as [|op ops IH]; intros u u' rs; cbn [u_run]; [intros [= _ <-]; reflexivity|]. destruct (u_step kf hash keq opt ord fuel u op) as [[x y]| |]; cbn [obind]; try discriminate.
    destruct (u_run kf hash keq opt ord fuel x ops) as [[x2 y2]| |] eqn:E; cbn [obind]; try discriminate. intros [= _ <-]. cbn [length]. f_equal. eapply IH, E.
  Qed.
  Lemma inserter_unordered : key_equality keq -> hash_respects keq hash -> any_order ord -> forall buckets excess, sizes_ok buckets excess ->
    forall fuel, (2 <= fuel)%nat -> forall junk (ops more : list (uop K V)), Forall (uop_ok (Z.of_nat buckets)) (ops ++ more) ->
    forall xs order, order ≡ₚ seq 0 (length xs) ->
    exists u0 u u' u2 rs rs2 M M' M2 (bucket : K -> Z), unordered_create ord junk (Z.of_nat buckets) (Z.of_nat excess) = Ret u0 /\
      u_run kf hash keq opt ord fuel u0 ops = Ret (u, rs) /\ spec_urun kf keq bucket (Z.of_nat (buckets + excess)) [] ops rs M /\
      copy_to_inserter (insert_op fuel) order xs u = Ret u' /\ spec_inserts kf keq M (in_order order xs) M' /\
      u_run kf hash keq opt ord fuel u' more = Ret (u2, rs2) /\ spec_urun kf keq bucket (Z.of_nat (buckets + excess)) M' more rs2 M2.
  Proof using.
    intros Hk Hh Ho buckets excess Hsz fuel Hf junk ops more Hops xs order Hor.
    destruct (C32_unordered_is_finite_map K V kf hash keq opt ord Hk Hh Ho buckets excess Hsz fuel Hf junk (ops ++ (UInsert <$> in_order order xs) ++ more)) as (u0 & u & rs & M & bucket & Ec & Er & _ & Hs & _).
    { rewrite !Forall_app in *. destruct Hops as [H1 H2]. split; [exact H1|]. split; [|exact H2]. apply Forall_fmap, Forall_true. intros x. exact I. }
    rewrite u_run_app in Er. destruct (u_run kf hash keq opt ord fuel u0 ops) as [[u1 r1]| |] eqn:E1; cbn [obind] in Er; try discriminate.
    destruct (u_run kf hash keq opt ord fuel u1 _) as [[u2 r2]| |] eqn:E2; cbn [obind] in Er; try discriminate. injection Er as -> <-.
    rewrite u_run_app in E2. destruct (u_run kf hash keq opt ord fuel u1 _) as [[u3 r3]| |] eqn:E3; cbn [obind] in E2; try discriminate.
    destruct (u_run kf hash keq opt ord fuel u3 more) as [[u4 r4]| |] eqn:E4; cbn [obind] in E2; try discriminate. injection E2 as -> <-.
    apply spec_urun_app in Hs as (s1 & s2 & M1 & Eq1 & L1 & Hs1 & Hs). apply spec_urun_app in Hs as (s3 & s4 & M3 & Eq3 & L3 & Hs3 & Hs4).
    apply app_inj_1 in Eq1 as [-> <-]; [|rewrite L1; eapply u_run_length, E1]. apply app_inj_1 in Eq3 as [-> ->]; [|rewrite L3; eapply u_run_length, E3].
    destruct (u_run_inserts _ _ _ _ _ E3) as [bs Eb].
    exists u0, u1, u3, u, s1, s4, M1, M3, M, bucket. repeat (split; [assumption|]). split.
    { rewrite copy_assign by (intros i Hi; rewrite Hor in Hi; apply elem_of_seq in Hi; lia). rewrite Eb. reflexivity. }
    split; [eapply spec_urun_inserts, Hs3|]. auto.
  Qed.
End un.
