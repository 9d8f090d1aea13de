(** A vector whose size counter is off by a debt, simulated by one whose counter is right. *)
From Verif Require Import Base Conc SlotModel SlotSpec SlotProofs Lifetime VectorModel VectorSpec VectorProofs VectorConcProofs RejectProofs VDebtSpec.

Section near.
  Context {T : Type} (opt : bool) (ord : nat -> list nat).
  (** same slots; the counter is off by k *)
  Definition near (k : Z) (v w : vec T) : Prop :=
    v_data v = v_data w /\ v_occ v = v_occ w /\ v_locks v = v_locks w /\ v_n v = v_n w + k.
  Definition onear (k : Z) (a b : outcome (vec T)) : Prop :=
    match a, b with Ret v, Ret w => near k v w | UB, UB | Hang, Hang => True | _, _ => False end.

  Lemma for_each_near k n f v w : (forall i v w, near k v w -> onear k (f i v) (f i w)) -> near k v w -> onear k (v_for_each ord n f v) (v_for_each ord n f w).
  Proof.
    intros Hf H0. unfold v_for_each. assert (H : onear k (Ret v) (Ret w)) by exact H0. revert H. generalize (Ret v) (Ret w). clear H0 v w.
    induction (ord n) as [|i l IH]; intros a b H; [exact H|]. cbn [fold_left]. apply IH.
    destruct a, b; cbn in H; try contradiction; [apply Hf; exact H|exact Logic.I|exact Logic.I].
  Qed.
  Lemma vector_insert_near k b vals i v w : near k v w -> onear k (vector_insert b vals i v) (vector_insert b vals i w).
  Proof.
    intros (H1 & H2 & H3 & H4). unfold vector_insert. rewrite H2. destruct (vals !! i); [|exact Logic.I]. destruct (v_occ w !! (b + i)%nat); [|exact Logic.I].
    cbn. repeat split; cbn; congruence.
  Qed.
  Lemma vector_erase_near k b i v w : near k v w -> onear k (vector_erase b i v) (vector_erase b i w).
  Proof.
    intros (H1 & H2 & H3 & H4). unfold vector_erase. rewrite H1. destruct (v_data w !! (b + i)%nat) as [[y|]|]; try exact Logic.I. cbn. repeat split; cbn; congruence.
  Qed.
  Lemma destroy_slot_near k i v w : near k v w -> onear k (destroy_slot i v) (destroy_slot i w).
  Proof.
    intros (H1 & H2 & H3 & H4). unfold destroy_slot. rewrite H1. destruct (v_data w !! i) as [[y|]|]; try exact Logic.I. cbn. repeat split; cbn; congruence.
  Qed.
  Lemma near_cap k v w : near k v w -> v_capacity v = v_capacity w.
  Proof. intros (H1 & H2 & H3 & H4). unfold v_capacity. rewrite H2. reflexivity. Qed.
  Lemma near_set k v w n : near k v w -> near 0 (v_set_n v n) (v_set_n w n).
  Proof. intros (H1 & H2 & H3 & H4). repeat split; cbn; auto. lia. Qed.

  (** results, and vectors whose counters are off by k' *)
  Definition sim (k' : Z) (a b : outcome (vec T * vres T)) : Prop :=
    match a, b with Ret (v, r), Ret (w, r') => r = r' /\ near k' v w | UB, UB | Hang, Hang => True | _, _ => False end.
  Lemma onear_bind k k' (a b : outcome (vec T)) (f : vec T -> vec T) r : onear k a b -> (forall v w, near k v w -> near k' (f v) (f w)) ->
    sim k' (let! v := a in Ret (f v, r)) (let! v := b in Ret (f v, r)).
  Proof. destruct a, b; cbn; try tauto. intros H Hf. split; [reflexivity|]. apply Hf. exact H. Qed.

  Section ops.
    Context (k : Z) (v w : vec T) (Hn : near k v w) (Hs : v_size v = v_size w).
    Lemma insert_near pos vals : match v_insert ord v pos vals, v_insert ord w pos vals with
      | Ret v', Ret w' => near (if (pos =? v_size w) && (v_size w + to_int32 (Z.of_nat (length vals)) <=? v_capacity w) then 0 else k) v' w'
      | UB, UB | Hang, Hang => True | _, _ => False end.
    Proof.
      unfold v_insert. rewrite Hs, (near_cap _ _ _ Hn). destruct (pos =? v_size w); cbn [negb andb]; [|exact Hn].
      destruct (_ && _); [|exact Logic.I]. set (N := to_int32 _). destruct (Z.ltb_spec (v_capacity w) (v_size w + N)) as [H|H].
      { destruct (Z.leb_spec (v_size w + N) (v_capacity w)); [lia|]. exact Hn. }
      destruct (Z.leb_spec (v_size w + N) (v_capacity w)); [|lia]. destruct (0 <=? N); [|exact Logic.I].
      pose proof (for_each_near k (Z.to_nat N) (vector_insert (Z.to_nat (v_size w)) vals) v w (vector_insert_near k _ _) Hn) as HL.
      destruct (v_for_each ord _ _ v), (v_for_each ord _ _ w); cbn in HL |- *; try tauto. apply (near_set k). exact HL.
    Qed.
    Lemma erase_near b e : match v_erase ord v b e, v_erase ord w b e with
      | Ret v', Ret w' => near (if (e =? v_size w) && (0 <=? v_size w - to_int32 (e - b)) then 0 else k) v' w'
      | UB, UB | Hang, Hang => True | _, _ => False end.
    Proof.
      unfold v_erase. rewrite Hs. destruct (e =? v_size w); cbn [negb andb]; [|exact Hn].
      destruct (_ && _); [|exact Logic.I]. set (N := to_int32 _). destruct (Z.ltb_spec (v_size w - N) 0) as [H|H].
      { destruct (Z.leb_spec 0 (v_size w - N)); [lia|]. exact Hn. }
      destruct (Z.leb_spec 0 (v_size w - N)); [|lia]. destruct (0 <=? N); [|exact Logic.I].
      pose proof (for_each_near k (Z.to_nat N) (vector_erase (Z.to_nat (v_size w - N))) v w (vector_erase_near k _) Hn) as HL.
      destruct (v_for_each ord _ _ v), (v_for_each ord _ _ w); cbn in HL |- *; try tauto. apply (near_set k). exact HL.
    Qed.
    Lemma clear_near : match v_clear opt ord v, v_clear opt ord w with
      | Ret v', Ret w' => near (if v_size w =? 0 then k else 0) v' w'
      | UB, UB | Hang, Hang => True | _, _ => False end.
    Proof.
      unfold v_clear, v_empty. rewrite Hs. destruct (v_size w =? 0); [exact Hn|]. destruct opt.
      - destruct Hn as (H1 & H2 & H3 & H4). cbn. repeat split; cbn; congruence.
      - pose proof (for_each_near k (Z.to_nat (v_size w)) destroy_slot v w (destroy_slot_near k) Hn) as HL.
        destruct (v_for_each ord _ _ v), (v_for_each ord _ _ w); cbn in HL |- *; try tauto. destruct HL as (H1 & H2 & H3 & H4). repeat split; cbn; congruence.
    Qed.
    (** calls that change nothing *)
    Lemma read_near op : match op with VSize | VEmpty | VFull | VIndex _ | VAt _ | VFront | VBack | VRange => True | _ => False end ->
      sim k (vec_step opt ord v op) (vec_step opt ord w op).
    Proof.
      destruct Hn as (H1 & H2 & H3 & H4). pose proof (near_cap _ _ _ Hn) as Hc.
      destruct op; cbn [vec_step]; try contradiction; intros _; unfold v_empty, v_full, v_at, v_front, v_back, v_range, v_occupied, v_index; rewrite ?Hs, ?Hc, ?H1, ?H2.
      - cbn. auto. - cbn. auto. - cbn. auto.
      - destruct (0 <=? n); [|exact Logic.I]. destruct (v_data w !! Z.to_nat n) as [[y|]|]; cbn; auto.
      - destruct (0 <=? n); [|exact Logic.I]. destruct (n <? v_size w); [|exact Logic.I]. destruct (_ && _); [|exact Logic.I].
        destruct (v_occ w !! Z.to_nat n) as [[]|]; cbn; auto. destruct (v_data w !! Z.to_nat n) as [[y|]|]; cbn; auto.
      - destruct (0 <=? 0); [|exact Logic.I]. destruct (v_data w !! Z.to_nat 0) as [[y|]|]; cbn; auto.
      - destruct (0 <=? v_size w - 1); [|exact Logic.I]. destruct (v_data w !! Z.to_nat (v_size w - 1)) as [[y|]|]; cbn; auto.
      - destruct (mapM id _); cbn; auto.
    Qed.
  End ops.
  Lemma near0 (v w : vec T) : v_data v = v_data w -> v_occ v = v_occ w -> v_locks v = v_locks w -> v_n v = v_n w -> near 0 v w.
  Proof. intros H1 H2 H3 H4. repeat split; auto. lia. Qed.
  Local Ltac n0 := split; [reflexivity|]; apply near0; cbn -[to_int32]; congruence.
  Lemma push_near0 v w x : near 0 v w -> sim 0 (vec_step opt ord v (VPush x)) (vec_step opt ord w (VPush x)).
  Proof.
    intros Hn. pose proof Hn as (H1 & H2 & H3 & H4). rewrite Z.add_0_r in H4. cbn [vec_step]. unfold v_push_back, v_full, v_size. rewrite (near_cap _ _ _ Hn). rewrite H4.
    assert (Hc : v_capacity (v_set_n v (to_int32 (v_n w + 1))) = v_capacity (v_set_n w (to_int32 (v_n w + 1)))) by (unfold v_capacity; cbn -[to_int32]; rewrite H2; reflexivity). rewrite Hc.
    destruct (_ =? _); [split; auto|]. destruct (_ && _); [|n0]. cbn [v_set_n v_locks v_occ]. rewrite H2, H3.
    destruct (v_locks w !! Z.to_nat (v_n w)) as [[]|], (v_occ w !! Z.to_nat (v_n w)) as [[]|]; try exact Logic.I. n0.
  Qed.
  Lemma pop_near0 v w : near 0 v w -> sim 0 (vec_step opt ord v VPop) (vec_step opt ord w VPop).
  Proof.
    intros Hn. pose proof Hn as (H1 & H2 & H3 & H4). rewrite Z.add_0_r in H4. cbn [vec_step]. unfold v_pop_back, v_empty, v_size, v_capacity. cbn [v_log v_n v_occ v_set_n v_set_occ v_data v_locks]. rewrite H1, H2, H3, H4.
    destruct (_ =? _); [n0|]. destruct (_ && _); [|n0].
    set (p := Z.to_nat _). destruct (v_locks w !! p) as [[]|], (v_occ w !! p) as [[]|]; try exact Logic.I. destruct (v_data w !! p) as [[y|]|]; try exact Logic.I. n0.
  Qed.
End near.

Section debt.
  Context {T : Type} (opt : bool) (ord : nat -> list nat) (Hord : forall n, ord n ≡ₚ seq 0 n) (cap : nat) (Hcap : 0 < Z.of_nat cap <= INT_MAX).
  (** the vector v with content l and debt k *)
  Definition drep (v : vec T) (l : list T) (k : Z) : Prop :=
    (exists w, vrep opt cap w l /\ near k v w) /\ (0 < k -> length l = cap) /\ (k < 0 -> l = []) /\ - 2 ^ 31 <= Z.of_nat (length l) + k <= INT_MAX.

  Lemma drep_size (v w : vec T) (l : list T) (k : Z) : vrep opt cap w l -> near k v w -> (0 < k -> length l = cap) -> (k < 0 -> l = []) -> v_size v = Z.of_nat (length l) /\ v_size w = Z.of_nat (length l).
  Proof.
    intros R N Hp Hm. split; [|exact (rep_size _ ord Hord _ _ _ R)]. unfold v_size. rewrite (near_cap _ _ _ N), (rep_cap _ _ _ _ R). destruct N as (_ & _ & _ & ->). rewrite (r_n _ _ _ _ R).
    pose proof (r_le _ _ _ _ R). unfold clamp_size. destruct (decide (0 < k)); [rewrite Hp by assumption; destruct (Z.ltb_spec (Z.of_nat cap + k) 0); [lia|]; destruct (Z.ltb_spec (Z.of_nat cap) (Z.of_nat cap + k)); lia|].
    destruct (decide (k < 0)); [rewrite Hm by assumption; cbn [length]; destruct (Z.ltb_spec (Z.of_nat 0 + k) 0); lia|].
    destruct (Z.ltb_spec (Z.of_nat (length l) + k) 0); [lia|]. destruct (Z.ltb_spec (Z.of_nat cap) (Z.of_nat (length l) + k)); lia.
  Qed.

  Lemma drep_step (v : vec T) (l : list T) (k : Z) (op : vop T) : drep v l k -> op_fits (Z.of_nat cap) op ->
    match debt_step (Z.of_nat cap) l k op with
    | Ret (l', k', r) => exists v', vec_step opt ord v op = Ret (v', r) /\ drep v' l' k'
    | UB => vec_step opt ord v op = UB
    | Hang => False
    end.
  Proof.
    intros ((w & R & N) & Hp & Hm & HB) Hfit. destruct (drep_size _ _ _ _ R N Hp Hm) as [Sv Sw]. assert (Hs : v_size v = v_size w) by congruence.
    pose proof (eq_refl : INT_MAX = 2 ^ 31 - 1) as HI.     pose proof (step_rep opt ord Hord cap Hcap w l op R Hfit) as HS. pose proof (r_le _ _ _ _ R) as Hle. unfold debt_step.
    assert (Cw : v_capacity w = Z.of_nat cap) by exact (rep_cap _ _ _ _ R).
    assert (FIN : forall a k', (0 < k' -> length l = cap) -> (k' < 0 -> l = []) -> - 2 ^ 31 <= Z.of_nat (length l) + k' <= INT_MAX -> near k' a w -> drep a l k').
    { intros a k' X1 X2 X3 X4. split; [exists w; auto|auto]. }
    assert (ZERO : forall a l' w', vrep opt cap w' l' -> near 0 a w' -> drep a l' 0).
    { intros a l' w' X1 X2. pose proof (r_le _ _ _ _ X1). split; [eauto|]. split; [lia|]. split; [lia|]. lia. }
    assert (READ : sim k (vec_step opt ord v op) (vec_step opt ord w op) -> forall l' r, spec_vstep (Z.of_nat cap) l op = Ret (l', r) -> l' = l ->
        exists v', vec_step opt ord v op = Ret (v', r) /\ drep v' l' k).
    { intros Sm l' r E ->. rewrite E in HS. destruct HS as (w' & Ew & R'). rewrite Ew in Sm. destruct (vec_step opt ord v op) as [[v' r']| |]; cbn in Sm; try contradiction.
      destruct Sm as [-> N']. exists v'. split; [reflexivity|]. split; [eauto|auto]. }
    assert (READU : sim k (vec_step opt ord v op) (vec_step opt ord w op) -> spec_vstep (Z.of_nat cap) l op = UB -> vec_step opt ord v op = UB).
    { intros Sm E. rewrite E in HS. rewrite HS in Sm. destruct (vec_step opt ord v op) as [[]| |]; cbn in Sm; tauto. }
    assert (READS : match op with VSize | VEmpty | VFull | VIndex _ | VAt _ | VFront | VBack | VRange => True | _ => False end -> 
       match (let! (l', r) := spec_vstep (Z.of_nat cap) l op in Ret (l', k, r)) with
       | Ret (l', k', r) => exists v', vec_step opt ord v op = Ret (v', r) /\ drep v' l' k' | UB => vec_step opt ord v op = UB | Hang => False end).
    { intros Ho. pose proof (read_near opt ord k v w N Hs op Ho) as Sm. destruct (spec_vstep (Z.of_nat cap) l op) as [[l' r]| |] eqn:E; cbn [obind].
      - apply (READ Sm); [reflexivity|]. destruct op; cbn in Ho, E; try contradiction; unfold spec_get in E; repeat case_match; congruence.
      - apply (READU Sm). reflexivity.
      - exact HS. }
    destruct op as [x| |pos vals|b e| | | | |n|n| | | |]; try exact (READS Logic.I).
    - (* push *)
      cbn [spec_vstep]. destruct (Z.ltb_spec k 0) as [Hk|Hk].
      + assert (E : forall A (a b : A), (let! (l', r) := (if Z.of_nat (length l) <? Z.of_nat cap then Ret (l ++ [x], RBool true) else Ret (l, RBool false)) : outcome (list T * vres T) in Ret (l, k + 1, @RBool T false)) = Ret (l, k + 1, RBool false)) by (intros; destruct (_ <? _); reflexivity).
        rewrite (E nat 0%nat 0%nat). rewrite (Hm Hk) in *. cbn [length] in *. cbn [vec_step]. unfold v_push_back, v_full. rewrite Sv, (near_cap _ _ _ N), Cw.
        destruct (Z.eqb_spec (Z.of_nat 0) (Z.of_nat cap)); [lia|]. pose proof N as (N1 & N2 & N3 & N4). rewrite (r_n _ _ _ _ R) in N4. cbn [length] in N4.
        destruct (Z.leb_spec 0 (v_n v)); [lia|]. cbn [andb obind]. eexists. split; [reflexivity|]. apply FIN; [lia|auto|lia|].
        repeat split; cbn; auto. rewrite (r_n _ _ _ _ R). cbn [length]. rewrite to_int32_id by lia. lia.
      + destruct (Z.eqb_spec k 0) as [-> | Hk0].
        * assert (Sm := push_near0 opt ord v w x N). cbn [spec_vstep] in HS.
          destruct (Z.of_nat (length l) <? Z.of_nat cap); cbn [obind]; destruct HS as (w' & Ew & R'); rewrite Ew in Sm;
            (destruct (vec_step opt ord v (VPush x)) as [[v' r']| |]; cbn in Sm; try contradiction; destruct Sm as [-> N']; exists v'; split; [reflexivity|]; exact (ZERO _ _ _ R' N')).
        * rewrite Hp in * by lia. destruct (Z.ltb_spec (Z.of_nat cap) (Z.of_nat cap)); [lia|]. cbn [obind vec_step]. unfold v_push_back, v_full. rewrite Sv, (near_cap _ _ _ N), Cw.
          rewrite Z.eqb_refl. cbn [obind]. eexists. split; [reflexivity|]. apply FIN; auto; lia.
    - (* pop *)
      cbn [spec_vstep]. destruct (Z.ltb_spec 0 k) as [Hk|Hk].
      + assert (E : (let! (l', r) := (match last l with Some x => Ret (removelast l, ROpt (Some x)) | None => Ret (l, ROpt None) end) : outcome (list T * vres T) in Ret (l, k - 1, @ROpt T None)) = Ret (l, k - 1, ROpt None)) by (destruct (last l); reflexivity).
        rewrite E. pose proof (Hp Hk) as Hlen. cbn [vec_step]. unfold v_pop_back, v_empty. assert (Sv' : v_size (v_log v EvInitCopy) = v_size v) by reflexivity. rewrite Sv', Sv.
        destruct (Z.eqb_spec (Z.of_nat (length l)) 0); [lia|]. pose proof N as (N1 & N2 & N3 & N4). rewrite (r_n _ _ _ _ R) in N4.
        assert (Hw : to_int32 (v_n (v_log v EvInitCopy) - 1) = v_n v - 1) by (cbn [v_log v_n]; apply to_int32_id; lia). rewrite Hw.
        assert (Cv : v_capacity (v_set_n (v_log v EvInitCopy) (v_n v - 1)) = Z.of_nat cap) by (change (v_capacity v = Z.of_nat cap); rewrite (near_cap _ _ _ N); exact Cw). rewrite Cv.
        destruct (Z.ltb_spec (v_n v - 1) (Z.of_nat cap)); [lia|]. rewrite andb_false_r. cbn [obind]. eexists. split; [reflexivity|]. apply FIN; [auto|lia|lia|].
        repeat split; cbn; auto. rewrite (r_n _ _ _ _ R). lia.
      + destruct (Z.eqb_spec k 0) as [-> | Hk0].
        * assert (Sm := pop_near0 opt ord v w N). cbn [spec_vstep] in HS.
          destruct (last l); cbn [obind]; destruct HS as (w' & Ew & R'); rewrite Ew in Sm;
            (destruct (vec_step opt ord v VPop) as [[v' r']| |]; cbn in Sm; try contradiction; destruct Sm as [-> N']; exists v'; split; [reflexivity|]; exact (ZERO _ _ _ R' N')).
        * pose proof (Hm ltac:(lia)) as El; subst l. cbn [last obind vec_step]. unfold v_pop_back, v_empty. assert (Sv' : v_size (v_log v EvInitCopy) = v_size v) by reflexivity. rewrite Sv', Sv. cbn [length Z.of_nat].
          cbn [Z.eqb obind]. eexists. split; [reflexivity|]. apply FIN; auto; try lia.
    - (* insert *)
      pose proof (insert_near ord k v w N Hs pos vals) as Sm. cbn [spec_vstep op_fits vec_step] in *. rewrite Sw, Cw in Sm. rewrite to_int32_id in Sm by (cbn in Hfit; lia).
      destruct ((pos =? Z.of_nat (length l)) && (Z.of_nat (length l) + Z.of_nat (length vals) <=? Z.of_nat cap)); cbn [obind];
        destruct HS as (w' & Ew & R'); (destruct (v_insert ord w pos vals) as [w1| |]; cbn [obind] in Ew; try discriminate; injection Ew as ->);
        (destruct (v_insert ord v pos vals) as [v1| |]; try contradiction); cbn [obind]; (eexists; split; [reflexivity|]).
      + exact (ZERO _ _ _ R' Sm).
      + split; [eauto|auto].
    - (* erase *)
      pose proof (erase_near ord k v w N Hs b e) as Sm. cbn [spec_vstep op_fits vec_step] in *. rewrite Sw in Sm.
      destruct ((e =? Z.of_nat (length l)) && (0 <=? b)) eqn:Eg.
      + apply andb_true_iff in Eg as [Ee Eb]. rewrite Ee in Sm. cbn [andb] in Sm. apply Z.eqb_eq in Ee. rewrite to_int32_id in Sm by lia. destruct (Z.leb_spec 0 (Z.of_nat (length l) - (e - b))); [|lia].
        destruct (b <=? e); cbn [obind].
        * destruct HS as (w' & Ew & R'). (destruct (v_erase ord w b e) as [w1| |]; cbn [obind] in Ew; try discriminate; injection Ew as ->).
          (destruct (v_erase ord v b e) as [v1| |]; try contradiction). cbn [obind]. eexists. split; [reflexivity|]. exact (ZERO _ _ _ R' Sm).
        * (destruct (v_erase ord w b e) as [w1| |]; cbn [obind] in HS; try discriminate). (destruct (v_erase ord v b e) as [v1| |]; try contradiction). reflexivity.
      + cbn [obind]. destruct HS as (w' & Ew & R'). (destruct (v_erase ord w b e) as [w1| |]; cbn [obind] in Ew; try discriminate; injection Ew as ->).
        (destruct (v_erase ord v b e) as [v1| |]; try contradiction). cbn [obind]. eexists. split; [reflexivity|].
        replace (if (e =? Z.of_nat (length l)) && (0 <=? Z.of_nat (length l) - to_int32 (e - b)) then 0 else k) with k in Sm.
        * split; [eauto|auto].
        * destruct (Z.eqb_spec e (Z.of_nat (length l))) as [Ee|]; [|reflexivity]. cbn [andb] in *. apply Z.leb_gt in Eg. rewrite to_int32_id by lia. destruct (Z.leb_spec 0 (Z.of_nat (length l) - (e - b))); [lia|reflexivity].
    - (* clear *)
      pose proof (clear_near opt ord k v w N Hs) as Sm. cbn [spec_vstep vec_step obind] in *. rewrite Sw in Sm. destruct HS as (w' & Ew & R').
      (destruct (v_clear opt ord w) as [w1| |]; cbn [obind] in Ew; try discriminate; injection Ew as ->). (destruct (v_clear opt ord v) as [v1| |]; try contradiction). cbn [obind]. eexists. split; [reflexivity|].
      destruct (Z.eqb_spec (Z.of_nat (length l)) 0) as [El|El]; [|exact (ZERO _ _ _ R' Sm)]. destruct l; [|cbn in El; lia]. split; [eauto|auto].
    - (* valid *)
      cbn [spec_vstep obind vec_step]. exists v. split; [|split; [eauto|auto]]. f_equal. f_equal. f_equal.
      pose proof (rep_valid opt ord Hord cap Hcap _ _ R) as HV. assert (Cv : v_capacity v = Z.of_nat cap) by (rewrite <- Cw; exact (near_cap _ _ _ N)). destruct N as (N1 & N2 & N3 & N4).
      unfold v_valid in HV |- *. rewrite Sw, Cw in HV. rewrite Sv, Cv, N2, N3. destruct (Z.eqb_spec (Z.of_nat cap) 0); [lia|].
      apply andb_true_iff in HV as [HV1 HV2]. apply andb_true_iff in HV1 as [HV1 HV3]. rewrite HV2, HV3, !andb_true_r. rewrite N4, (r_n _ _ _ _ R).
      destruct (Z.eqb_spec k 0) as [-> |]; [lia|]. destruct (decide (0 < k)); [rewrite Hp by assumption; lia|]. rewrite (Hm ltac:(lia)). cbn [length]. lia.
  Qed.
  Lemma drep_run ops : forall v l k, drep v l k -> (forall op, op ∈ ops -> op_fits (Z.of_nat cap) op) ->
    match debt_run (Z.of_nat cap) l k ops with
    | Ret (l', k', rs) => exists v', vec_run opt ord v ops = Ret (v', rs) /\ drep v' l' k'
    | UB => vec_run opt ord v ops = UB
    | Hang => False
    end.
  Proof.
    induction ops as [|op ops IH]; intros v l k D Hfit; [cbn; eauto|]. cbn [debt_run vec_run].
    pose proof (drep_step v l k op D (Hfit op ltac:(left))) as Hs. destruct (debt_step (Z.of_nat cap) l k op) as [[[l1 k1] r]| |]; [|rewrite Hs; reflexivity|contradiction].
    destruct Hs as (v1 & E1 & R1). rewrite E1. cbn [obind]. specialize (IH v1 l1 k1 R1 (fun o Ho => Hfit o (elem_of_list_further _ _ _ Ho))).
    destruct (debt_run (Z.of_nat cap) l1 k1 ops) as [[[l2 k2] rs]| |]; cbn [obind]; [|rewrite IH; reflexivity|contradiction].
    destruct IH as (v2 & E2 & R2). rewrite E2. cbn. eauto.
  Qed.
End debt.

(** ** a vector at rest *)
Lemma stored_prefix {T} (d : list (option T)) : forall n, (n <= length d)%nat -> (forall p, (p < length d)%nat -> exists y, d !! p = Some y /\ (y <> None <-> (p < n)%nat)) ->
  forall p, (p < length d)%nat -> d !! p = Some (stored d !! p).
Proof.
  unfold stored. induction d as [|a d IH]; intros n Hn H p Hp; [cbn in Hp; lia|]. destruct (H 0%nat ltac:(cbn; lia)) as (y & Ey & Hy). injection Ey as <-.
  destruct a as [x|].
  - cbn. unfold id at 1. destruct p as [|p]; [reflexivity|]. cbn. apply (IH (n - 1)%nat); cbn in *; [lia| |lia].
    intros q Hq. destruct (H (S q) ltac:(lia)) as (y & Ey & Hy'). exists y. split; [exact Ey|]. rewrite Hy'. assert (0 < n)%nat by (apply Hy; discriminate). lia.
  - assert (Hn0 : n = 0%nat). { destruct n; [reflexivity|]. exfalso. apply (proj2 Hy); [lia|reflexivity]. } subst n.
    assert (E : forall m, omap id (replicate m (@None T)) = []) by (induction m; [reflexivity|assumption]).
    assert (Ed : None :: d = replicate (S (length d)) (@None T)).
    { cbn [replicate]. f_equal. apply list_eq. intros i. destruct (decide (i < length d)%nat) as [Hi|Hi]; [|rewrite !lookup_ge_None_2 by (rewrite ?replicate_length; lia); reflexivity].
      destruct (H (S i) ltac:(cbn; lia)) as (y & Ey & Hy'). change (d !! i = Some y) in Ey. rewrite Ey, lookup_replicate_2 by exact Hi. f_equal. destruct y; [exfalso; assert (S i < 0)%nat by (apply Hy'; discriminate); lia|reflexivity]. }
    rewrite Ed, E. rewrite lookup_replicate_2 by (cbn in Hp; lia). reflexivity.
Qed.
Lemma constructs_live n : forall a live, (forall p, (a <= p)%nat -> live (InSlot p) = false) ->
  lifetime_ok live ((fun p => EvConstruct (InSlot p)) <$> seq a n) /\
  forall p, live_after live ((fun p => EvConstruct (InSlot p)) <$> seq a n) (InSlot p) = live (InSlot p) || bool_decide (a <= p < a + n)%nat.
Proof.
  induction n as [|n IH]; intros a lv Hl; cbn [seq].
  - split; [exact Logic.I|]. intros p. rewrite bool_decide_eq_false_2 by lia. cbn. rewrite orb_false_r. reflexivity.
  - rewrite fmap_cons. cbn [lifetime_ok live_after]. specialize (IH (S a) (fun q => if decide (q = InSlot a) then true else lv q)).
    destruct IH as [I1 I2]. { intros p Hp. rewrite decide_False by (intros [=]; lia). apply Hl. lia. }
    split; [split; [apply Hl; lia|exact I1]|]. intros p. rewrite I2. destruct (decide (InSlot p = InSlot a)) as [[= ->]|Hne].
    + rewrite (bool_decide_eq_true_2 (a <= a < a + S n)%nat) by lia. rewrite orb_true_r. reflexivity.
    + f_equal. apply bool_decide_ext. assert (p <> a) by congruence. lia.
Qed.
Lemma slot_events_constructs (l : list nat) : slot_events ((fun p => EvConstruct (InSlot p)) <$> l) = (fun p => EvConstruct (InSlot p)) <$> l.
Proof. unfold slot_events. induction l as [|a l IH]; [reflexivity|]. rewrite fmap_cons, filter_cons, decide_True by reflexivity. rewrite IH. reflexivity. Qed.

Section rest.
  Context {T : Type} (opt : bool) (ord : nat -> list nat) (Hord : forall n, ord n ≡ₚ seq 0 n) (cap : nat) (l : list T) (Hl : (length l <= cap)%nat) (Hcap : 0 < Z.of_nat cap <= INT_MAX).
  Context (progs : list (list (qop T))) (Hwf : forall p op, p ∈ progs -> op ∈ p -> vector_call op).
  Lemma rest_drep s ls : reach (qstep (vctl cap)) (vec_conc_start cap l, q_start progs) (s, ls) -> quiescent ls -> - 2 ^ 31 <= v_n (as_vec s) <= INT_MAX ->
    drep opt cap (as_vec s) (stored (q_data s)) (rejected true progs ls - rejected false progs ls).
  Proof.
    intros R Hq HB. destruct (vec_quiescent cap l Hl progs Hwf s ls R Hq) as (Q1 & Q2 & Q3 & Q4 & Q5).
    destruct (vec_reject cap l Hl ltac:(lia) progs Hwf s ls R Hq) as [V1 V2]. set (k := rejected true progs ls - rejected false progs ls) in *.
    set (L := stored (q_data s)) in *. assert (Ek : v_n (as_vec s) = Z.of_nat (length L) + k) by lia.
    pose proof (reach_inv cap l Hl progs Hwf s ls R) as I. destruct (i_len _ _ _ _ _ _ I) as (L1 & L2 & L3). clear I.
    unfold v_size in Q1. rewrite Q5, Ek in Q1. unfold clamp_size in Q1.
    assert (HL : (length L <= cap)%nat) by (destruct (Z.ltb_spec (Z.of_nat (length L) + k) 0); [lia|]; destruct (Z.ltb_spec (Z.of_nat cap) (Z.of_nat (length L) + k)); lia).
    assert (Hsz : v_size (as_vec s) = Z.of_nat (length L)). { unfold v_size. rewrite Q5, Ek. exact Q1. }
    split.
    - set (evs := (fun p => EvConstruct (InSlot p)) <$> seq 0 (length L)).
      exists {| v_n := Z.of_nat (length L); v_data := q_data s; v_occ := q_occ s; v_locks := q_locks s; v_ev := evs |}. split; [|repeat split; cbn; auto].
      split; cbn [v_n v_data v_occ v_locks v_ev]; auto.
      + apply list_eq. intros i. destruct (decide (i < cap)%nat) as [Hi|Hi]; [|rewrite !lookup_ge_None_2 by (rewrite ?replicate_length; lia); reflexivity].
        rewrite lookup_replicate_2 by exact Hi. apply (Q2 i Hi).
      + intros p Hp. apply (stored_prefix _ (length L)); [lia| |lia]. intros q Hqq. destruct (Q2 q ltac:(lia)) as (_ & _ & d & E & Hd). exists d. split; [exact E|]. rewrite Hd, Hsz. lia.
      + intros p Hp. destruct (Q2 p Hp) as (E & _). rewrite E, Hsz. f_equal. apply bool_decide_ext. lia.
      + intros _. unfold evs. rewrite slot_events_constructs. destruct (constructs_live (length L) 0 nothing ltac:(reflexivity)) as [C1 C2]. split; [exact C1|]. intros p. rewrite C2. cbn [nothing orb]. apply bool_decide_ext. lia.
    - rewrite <- Ek. destruct (Z.ltb_spec (Z.of_nat (length L) + k) 0).
      + split; [lia|]. split; [|exact HB]. intros _. destruct L; [reflexivity|cbn in *; lia].
      + destruct (Z.ltb_spec (Z.of_nat cap) (Z.of_nat (length L) + k)); (split; [lia|]); (split; [|exact HB]); intros; exfalso; lia.
  Qed.

  Lemma drep_facts (v : vec T) (L : list T) k : drep opt cap v L k -> v_range v = Ret L /\ (v_valid v = true <-> k = 0).
  Proof.
    intros D. pose proof (drep_step opt ord Hord cap Hcap v L k VRange D Logic.I) as H1. pose proof (drep_step opt ord Hord cap Hcap v L k VValid D Logic.I) as H2.
    cbn in H1, H2. destruct H1 as (v1 & E1 & _). destruct H2 as (v2 & E2 & _). split.
    - destruct (v_range v); cbn in E1; congruence.
    - assert (v_valid v = (k =? 0)) as -> by congruence. apply Z.eqb_eq.
  Qed.
  Lemma after_overflow s ls ops : reach (qstep (vctl cap)) (vec_conc_start cap l, q_start progs) (s, ls) -> quiescent ls -> - 2 ^ 31 <= v_n (as_vec s) <= INT_MAX ->
    (forall op, op ∈ ops -> op_fits (Z.of_nat cap) op) ->
    match debt_run (Z.of_nat cap) (stored (q_data s)) (rejected true progs ls - rejected false progs ls) ops with
    | Ret (l', k', rs) => exists v', vec_run opt ord (as_vec s) ops = Ret (v', rs) /\ v_range v' = Ret l' /\ (v_valid v' = true <-> k' = 0)
    | UB => vec_run opt ord (as_vec s) ops = UB
    | Hang => False
    end.
  Proof.
    intros R Hq HB Hf. pose proof (drep_run opt ord Hord cap Hcap ops _ _ _ (rest_drep s ls R Hq HB) Hf) as H.
    destruct (debt_run _ _ _ ops) as [[[l' k'] rs]| |]; auto. destruct H as (v' & E & D). exists v'. split; [exact E|]. exact (drep_facts _ _ _ D).
  Qed.
End rest.

(** what the specification with debt says *)
Section spec.
  Context {T : Type} (cap : Z).
  Lemma debt_run_0 ops : forall l : list T, debt_run cap l 0 ops = let! (l', rs) := spec_vrun cap l ops in Ret (l', 0, rs).
  Proof.
    induction ops as [|op ops IH]; intros l; [reflexivity|]. cbn [debt_run spec_vrun]. unfold debt_step.
    assert (H : (let! (l', r) := spec_vstep cap l op in match op with
        | VPush _ => if 0 <? 0 then Ret (l, 0 + 1, RBool false) else Ret (l', 0, r)
        | VPop => if 0 <? 0 then Ret (l, 0 - 1, ROpt None) else Ret (l', 0, r)
        | VInsert pos vals => Ret (l', if (pos =? Z.of_nat (length l)) && (Z.of_nat (length l) + Z.of_nat (length vals) <=? cap) then 0 else 0, r)
        | VErase b e => Ret (l', if (e =? Z.of_nat (length l)) && (0 <=? b) then 0 else 0, r)
        | VClear => Ret (l', if Z.of_nat (length l) =? 0 then 0 else 0, r)
        | VValid => Ret (l', 0, RBool (0 =? 0))
        | _ => Ret (l', 0, r) end) = let! (l', r) := spec_vstep cap l op in Ret (l', 0, r)).
    { destruct (spec_vstep cap l op) as [[l' r]| |] eqn:E; cbn [obind]; [|reflexivity|reflexivity].
      destruct op; try reflexivity; try (destruct (_ && _); reflexivity); try (destruct (_ =? _); reflexivity). cbn in E. injection E as <- <-. reflexivity. }
    rewrite H. destruct (spec_vstep cap l op) as [[l' r]| |]; cbn [obind]; [|reflexivity|reflexivity]. rewrite IH. destruct (spec_vrun cap l' ops) as [[l2 rs]| |]; reflexivity.
  Qed.
  Lemma debt_pops n ops : forall l : list T, debt_run cap l (Z.of_nat n) (replicate n VPop ++ ops) = let! (l', rs) := spec_vrun cap l ops in Ret (l', 0, replicate n (ROpt None) ++ rs).
  Proof.
    induction n as [|n IH]; intros l; [apply debt_run_0|]. cbn [replicate app debt_run]. unfold debt_step. cbn [spec_vstep]. destruct (Z.ltb_spec 0 (Z.of_nat (S n))); [|lia].
    replace (Z.of_nat (S n) - 1) with (Z.of_nat n) by lia. destruct (last l); cbn [obind]; rewrite IH; destruct (spec_vrun cap l ops) as [[l' rs]| |]; reflexivity.
  Qed.
  Lemma debt_pushes (xs : list T) ops : forall l : list T, debt_run cap l (- Z.of_nat (length xs)) ((VPush <$> xs) ++ ops) = let! (l', rs) := spec_vrun cap l ops in Ret (l', 0, replicate (length xs) (RBool false) ++ rs).
  Proof.
    induction xs as [|x xs IH]; intros l; [apply debt_run_0|]. rewrite fmap_cons. cbn [length replicate app debt_run]. unfold debt_step. cbn [spec_vstep]. destruct (Z.ltb_spec (- Z.of_nat (S (length xs))) 0); [|lia].
    replace (- Z.of_nat (S (length xs)) + 1) with (- Z.of_nat (length xs)) by lia. destruct (_ <? _); cbn [obind]; rewrite IH; destruct (spec_vrun cap l ops) as [[l' rs]| |]; reflexivity.
  Qed.
  Lemma debt_clear k ops (l : list T) : l <> [] -> debt_run cap l k (VClear :: ops) = let! (l', rs) := spec_vrun cap [] ops in Ret (l', 0, RUnit :: rs).
  Proof.
    intros Hl. cbn [debt_run]. unfold debt_step. cbn [spec_vstep obind]. destruct (Z.eqb_spec (Z.of_nat (length l)) 0); [destruct l; [congruence|cbn in *; lia]|].
    rewrite debt_run_0. destruct (spec_vrun cap [] ops) as [[l' rs]| |]; reflexivity.
  Qed.
End spec.
