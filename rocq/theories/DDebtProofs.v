(** A deque whose size counter is off by k, simulated by one whose counter is right. *)
From Verif Require Import Base Conc SlotModel SlotSpec SlotProofs Lifetime VectorModel VectorSpec VectorProofs VectorConcProofs RejectProofs VDebtProofs.
From Verif Require Import BitModel AtomicModel DequeModel DequeSpec DequeProofs DequeConcProofs DDebtSpec.

Section near.
  Context {T : Type} (opt : bool) (ord : nat -> list nat).
  Definition dnear (k : Z) (d w : deq T) : Prop := near k (d_v d) (d_v w) /\ d_begin d = d_begin w /\ d_end d = d_end w /\ d_indices d = d_indices w.
  Definition odnear {A} (k : Z) (a b : outcome (deq T * A)) : Prop :=
    match a, b with Ret (d, r), Ret (w, r') => r = r' /\ dnear k d w | UB, UB | Hang, Hang => True | _, _ => False end.
  Lemma slot_push_near k v w p x : near k v w -> onear k (slot_push (T:=T) v p x) (slot_push w p x).
  Proof.
    intros (H1 & H2 & H3 & H4). unfold slot_push. rewrite H2, H3. destruct (v_locks w !! Z.to_nat p) as [[]|], (v_occ w !! Z.to_nat p) as [[]|]; try exact Logic.I.
    cbn. repeat split; cbn; congruence.
  Qed.
  Lemma slot_pop_near k v w p : near k v w -> match slot_pop (T:=T) v p, slot_pop w p with
    | Ret (v', y), Ret (w', y') => y = y' /\ near k v' w' | UB, UB | Hang, Hang => True | _, _ => False end.
  Proof.
    intros (H1 & H2 & H3 & H4). unfold slot_pop. cbn [v_set_occ v_data]. rewrite H1, H2, H3. destruct (v_locks w !! Z.to_nat p) as [[]|], (v_occ w !! Z.to_nat p) as [[]|]; try exact Logic.I.
    destruct (v_data w !! Z.to_nat p) as [[y|]|]; try exact Logic.I. split; [reflexivity|]. repeat split; cbn; congruence.
  Qed.
  Lemma near_n k v w n n' : near k v w -> n = n' + k -> near k (v_set_n (T:=T) v n) (v_set_n w n').
  Proof. intros (H1 & H2 & H3 & H4) E. repeat split; cbn; auto. Qed.
  Lemma near_log k v w e : near k v w -> near k (v_log (T:=T) v e) (v_log w e).
  Proof. intros (H1 & H2 & H3 & H4). repeat split; cbn; auto. Qed.
  Lemma dnear_cap k d w : dnear k d w -> d_capacity d = d_capacity w.
  Proof. intros (H & _). exact (near_cap _ _ _ H). Qed.

  Section go.
    Context (k : Z) (d w : deq T) (N : dnear k d w) (Bd : - 2 ^ 31 <= v_n (d_v d) <= INT_MAX) (Bw : - 2 ^ 31 <= v_n (d_v w) <= INT_MAX) (Hc : d_capacity w <= INT_MAX).
    Local Lemma inc : v_n (d_v d) < INT_MAX -> v_n (d_v w) < INT_MAX -> to_int32 (v_n (d_v d) + 1) = to_int32 (v_n (d_v w) + 1) + k.
    Proof. intros X Y. destruct N as ((_ & _ & _ & H) & _). pose proof (eq_refl : INT_MAX = 2 ^ 31 - 1). rewrite !to_int32_id by lia. lia. Qed.
    Local Lemma dec : 0 < v_n (d_v d) -> 0 < v_n (d_v w) -> to_int32 (v_n (d_v d) - 1) = to_int32 (v_n (d_v w) - 1) + k.
    Proof. intros X Y. destruct N as ((_ & _ & _ & H) & _). pose proof (eq_refl : INT_MAX = 2 ^ 31 - 1). rewrite !to_int32_id by lia. lia. Qed.
    Lemma push_back_near x : d_full d = false -> d_full w = false -> v_n (d_v d) < d_capacity d -> v_n (d_v w) < d_capacity w -> odnear k (d_push_back d x) (d_push_back w x).
    Proof.
      intros F1 F2 C1 C2. unfold d_push_back. rewrite F1, F2. cbv zeta. set (d1 := d_set_v d _). set (w1 := d_set_v w _).
      change (d_capacity d1) with (d_capacity d). change (d_capacity w1) with (d_capacity w). rewrite (proj2 (Z.ltb_lt _ _) C1), (proj2 (Z.ltb_lt _ _) C2).
      assert (N1 : dnear k d1 w1) by (destruct N as (A & B & C & D); split; [exact (near_n k _ _ _ _ A (inc ltac:(pose proof (dnear_cap _ _ _ N); lia) ltac:(lia)))|auto]). clearbody d1 w1.
      destruct N1 as (A & B & C & D). rewrite (dnear_cap _ _ _ N), C. cbn [d_set_end d_v].
      pose proof (slot_push_near k _ _ (d_end w1) x A) as S.
      destruct (slot_push (d_v d1) _ _), (slot_push (d_v w1) _ _); cbn in S |- *; try contradiction; auto.
      split; [reflexivity|]. split; [exact S|]. cbn. rewrite ?B, ?C, ?D. auto.
    Qed.
    Lemma push_front_near x : d_full d = false -> d_full w = false -> v_n (d_v d) < d_capacity d -> v_n (d_v w) < d_capacity w -> odnear k (d_push_front d x) (d_push_front w x).
    Proof.
      intros F1 F2 C1 C2. unfold d_push_front. rewrite F1, F2. cbv zeta. set (d1 := d_set_v d _). set (w1 := d_set_v w _).
      change (d_capacity d1) with (d_capacity d). change (d_capacity w1) with (d_capacity w). rewrite (proj2 (Z.ltb_lt _ _) C1), (proj2 (Z.ltb_lt _ _) C2).
      assert (N1 : dnear k d1 w1) by (destruct N as (A & B & C & D); split; [exact (near_n k _ _ _ _ A (inc ltac:(pose proof (dnear_cap _ _ _ N); lia) ltac:(lia)))|auto]). clearbody d1 w1.
      destruct N1 as (A & B & C & D). rewrite (dnear_cap _ _ _ N), B. cbn [d_set_begin d_v].
      pose proof (slot_push_near k _ _ (dec_reconstruct (d_capacity w) (d_begin w1)) x A) as S.
      destruct (slot_push (d_v d1) _ _), (slot_push (d_v w1) _ _); cbn in S |- *; try contradiction; auto.
      split; [reflexivity|]. split; [exact S|]. cbn. rewrite ?B, ?C, ?D. auto.
    Qed.
    Lemma pop_back_near : d_empty d = false -> d_empty w = false -> 0 < v_n (d_v d) -> 0 < v_n (d_v w) -> odnear k (d_pop_back d) (d_pop_back w).
    Proof.
      intros F1 F2 C1 C2. unfold d_pop_back. cbv zeta. set (d0 := d_set_v d (v_log (d_v d) EvInitCopy)). set (w0 := d_set_v w (v_log (d_v w) EvInitCopy)).
      change (d_empty d0) with (d_empty d). change (d_empty w0) with (d_empty w). rewrite F1, F2.
      change (v_n (d_v d0)) with (v_n (d_v d)). change (v_n (d_v w0)) with (v_n (d_v w)). rewrite (proj2 (Z.ltb_lt _ _) C1), (proj2 (Z.ltb_lt _ _) C2).
      set (d1 := d_set_v d0 _). set (w1 := d_set_v w0 _). change (d_capacity d1) with (d_capacity d). change (d_capacity w1) with (d_capacity w).
      assert (N1 : dnear k d1 w1) by (destruct N as (A & B & C & D); split; [exact (near_n k _ _ _ _ (near_log k _ _ EvInitCopy A) (dec C1 C2))|auto]). clearbody d1 w1. clear d0 w0.
      destruct N1 as (A & B & C & D). rewrite (dnear_cap _ _ _ N), C. cbn [d_set_end d_v].
      pose proof (slot_pop_near k _ _ (dec_reconstruct (d_capacity w) (d_end w1)) A) as S.
      destruct (slot_pop (d_v d1) _) as [[v1 y1]| |], (slot_pop (d_v w1) _) as [[v2 y2]| |]; cbn in S |- *; try contradiction; auto.
      destruct S as [-> S]. split; [reflexivity|]. split; [exact S|]. cbn. rewrite ?B, ?C, ?D. auto.
    Qed.
    Lemma pop_front_near : d_empty d = false -> d_empty w = false -> 0 < v_n (d_v d) -> 0 < v_n (d_v w) -> odnear k (d_pop_front d) (d_pop_front w).
    Proof.
      intros F1 F2 C1 C2. unfold d_pop_front. cbv zeta. set (d0 := d_set_v d (v_log (d_v d) EvInitCopy)). set (w0 := d_set_v w (v_log (d_v w) EvInitCopy)).
      change (d_empty d0) with (d_empty d). change (d_empty w0) with (d_empty w). rewrite F1, F2.
      change (v_n (d_v d0)) with (v_n (d_v d)). change (v_n (d_v w0)) with (v_n (d_v w)). rewrite (proj2 (Z.ltb_lt _ _) C1), (proj2 (Z.ltb_lt _ _) C2).
      set (d1 := d_set_v d0 _). set (w1 := d_set_v w0 _). change (d_capacity d1) with (d_capacity d). change (d_capacity w1) with (d_capacity w).
      assert (N1 : dnear k d1 w1) by (destruct N as (A & B & C & D); split; [exact (near_n k _ _ _ _ (near_log k _ _ EvInitCopy A) (dec C1 C2))|auto]). clearbody d1 w1. clear d0 w0.
      destruct N1 as (A & B & C & D). rewrite (dnear_cap _ _ _ N), B. cbn [d_set_begin d_v].
      pose proof (slot_pop_near k _ _ (d_begin w1) A) as S.
      destruct (slot_pop (d_v d1) _) as [[v1 y1]| |], (slot_pop (d_v w1) _) as [[v2 y2]| |]; cbn in S |- *; try contradiction; auto.
      destruct S as [-> S]. split; [reflexivity|]. split; [exact S|]. cbn. rewrite ?B, ?C, ?D. auto.
    Qed.
  End go.
  Lemma destroy_range_near k a b v w : near k v w -> onear k (destroy_range (T:=T) ord a b v) (destroy_range ord a b w).
  Proof. intros H. unfold destroy_range. apply for_each_near; [|exact H]. intros i v1 w1 H1. apply destroy_slot_near. exact H1. Qed.
End near.

(** a loop that destroys a slot without a living object *)
Lemma destroy_dead {T} (ord : nat -> list nat) (Hord : forall n, ord n ≡ₚ seq 0 n) n p (v : vec T) : (p < n)%nat -> v_data v !! p = Some None -> v_for_each ord n (fun i v => destroy_slot (0 + i) v) v = UB.
Proof.
  intros Hp Hd. unfold v_for_each. assert (Hin : p ∈ ord n) by (rewrite Hord, elem_of_seq; lia). clear Hp. revert v Hd Hin. generalize (ord n) as os.
  assert (HU : forall os, fold_left (fun acc i => let! v := acc in destroy_slot (T:=T) (0 + i) v) os UB = UB) by (induction os; [reflexivity|assumption]).
  induction os as [|i os IH]; intros v Hd Hin; [inversion Hin|]. cbn [fold_left obind]. change (destroy_slot (0 + i) v) with (match v_data v !! i with Some (Some _) => Ret (v_destroy v i) | _ => UB end).
  destruct (v_data v !! i) as [[y|]|] eqn:E; [|apply HU|apply HU]. assert (i <> p) by congruence. apply IH.
  - cbn. rewrite list_lookup_insert_ne by assumption. exact Hd.
  - apply elem_of_cons in Hin as [-> |Hin]; [contradiction|exact Hin].
Qed.

Section off.
  Context {T : Type} (opt : bool) (ord : nat -> list nat) (Hord : forall n, ord n ≡ₚ seq 0 n) (cap : nat) (Hcap : 0 < Z.of_nat cap <= INT_MAX).
  Notation len l := (Z.of_nat (length l)).
  (** the deque d with content l and a counter off by k *)
  Definition orep (d : deq T) (l : list T) (k : Z) : Prop :=
    (exists b w, drep opt cap b w l /\ dnear k d w) /\ - 2 ^ 31 <= len l + k <= INT_MAX.

  Lemma off_facts (d w : deq T) b (l : list T) k : drep opt cap b w l -> dnear k d w ->
    v_n (d_v d) = len l + k /\ d_capacity d = Z.of_nat cap /\ d_size d = Z.max 0 (Z.min (Z.of_nat cap) (len l + k)) /\
    d_full d = (Z.of_nat cap <=? len l + k) /\ d_empty d = (len l + k <=? 0).
  Proof.
    intros R N. assert (C : d_capacity d = Z.of_nat cap) by (rewrite (dnear_cap _ _ _ N); exact (drep_cap _ _ _ _ _ R)).
    assert (E : v_n (d_v d) = len l + k). { destruct N as ((_ & _ & _ & ->) & _). rewrite (e_n _ _ _ _ _ R). reflexivity. }
    assert (S : d_size d = Z.max 0 (Z.min (Z.of_nat cap) (len l + k))).
    { unfold d_size, v_size, clamp_size. change (v_capacity (d_v d)) with (d_capacity d). rewrite C, E. destruct (Z.ltb_spec (len l + k) 0); [lia|]. destruct (Z.ltb_spec (Z.of_nat cap) (len l + k)); lia. }
    split; [exact E|]. split; [exact C|]. split; [exact S|]. unfold d_full, v_full, d_empty, v_empty. change (v_size (d_v d)) with (d_size d). change (v_capacity (d_v d)) with (d_capacity d). rewrite C, S.
    split; [destruct (Z.leb_spec (Z.of_nat cap) (len l + k)); lia|destruct (Z.leb_spec (len l + k) 0); lia].
  Qed.
  (** every slot of a full deque is occupied, no slot of an empty one *)
  Lemma occ_full b (w : deq T) (l : list T) p : drep opt cap b w l -> length l = cap -> (p < cap)%nat -> v_occ (d_v w) !! p = Some true.
  Proof. intros R E Hp. rewrite (e_occ _ _ _ _ _ R) by exact Hp. apply (f_equal Some). apply bool_decide_eq_true_2. rewrite E. apply dist_lt; [apply R|exact Hp]. Qed.
  Lemma occ_empty b (w : deq T) p : drep opt cap b w [] -> (p < cap)%nat -> v_occ (d_v w) !! p = Some false.
  Proof. intros R Hp. rewrite (e_occ _ _ _ _ _ R) by exact Hp. apply (f_equal Some). apply bool_decide_eq_false_2. cbn. lia. Qed.
  Lemma hang_push v p (x : T) : v_locks v = replicate cap false -> (0 <= p < Z.of_nat cap) -> v_occ v !! Z.to_nat p = Some true -> slot_push v p x = Hang.
  Proof. intros H1 H2 H3. unfold slot_push. rewrite H1, lookup_replicate_2 by lia. rewrite H3. reflexivity. Qed.
  Lemma hang_pop (v : vec T) p : v_locks v = replicate cap false -> (0 <= p < Z.of_nat cap) -> v_occ v !! Z.to_nat p = Some false -> slot_pop v p = Hang.
  Proof. intros H1 H2 H3. unfold slot_pop. rewrite H1, lookup_replicate_2 by lia. rewrite H3. reflexivity. Qed.
  Lemma reconstruct_range p : 0 <= p < Z.of_nat cap -> 0 <= dec_reconstruct (Z.of_nat cap) p < Z.of_nat cap.
  Proof. unfold dec_reconstruct. destruct (Z.eqb_spec p 0); lia. Qed.
  Lemma bounds b (w : deq T) (l : list T) : drep opt cap b w l -> 0 <= d_begin w < Z.of_nat cap /\ 0 <= d_end w < Z.of_nat cap.
  Proof. intros R. rewrite (e_begin _ _ _ _ _ R), (e_end _ _ _ _ _ R). pose proof (e_b _ _ _ _ _ R). pose proof (ring_pos_lt cap b ltac:(assumption) (length l) (e_le _ _ _ _ _ R)). lia. Qed.

  Definition push_op (front : bool) (x : T) (d : deq T) := if front then d_push_front d x else d_push_back d x.
  Definition pop_op (front : bool) (d : deq T) := if front then d_pop_front d else d_pop_back d.
  Lemma off_push_ok (front : bool) (d : deq T) (l : list T) k (x : T) : orep d l k -> match off_push (Z.of_nat cap) l k (if front then x :: l else l ++ [x]) with
    | Ret (l', k', r) => exists (d' : deq T) (b : bool), push_op front x d = Ret (d', b) /\ r = RBool b /\ orep d' l' k'
    | UB => False | Hang => push_op front x d = Hang end.
  Proof.
    intros ((b & w & R & N) & HB). destruct (off_facts _ _ _ _ _ R N) as (En & Ec & Es & Ef & Ee). pose proof (eq_refl : INT_MAX = 2 ^ 31 - 1) as HI. pose proof (e_le _ _ _ _ _ R) as Hle. unfold off_push.
    destruct (Z.leb_spec (Z.of_nat cap) (len l + k)) as [H|H].
    - exists d, false. split; [|split; [reflexivity|split; [eauto|exact HB]]]. unfold push_op, d_push_front, d_push_back. rewrite Ef. destruct front; reflexivity.
    - pose proof (dnear_cap _ _ _ N) as Ecw. pose proof (bounds _ _ _ R) as [B1 B2]. destruct (Z.ltb_spec (len l) (Z.of_nat cap)) as [H1|H1].
      + assert (Fw : d_full w = false) by (rewrite (full_iff opt ord Hord cap _ _ _ R); lia).
        assert (Nw : v_n (d_v w) = len l) by exact (e_n _ _ _ _ _ R).
        assert (HS : exists b' w', push_op front x w = Ret (w', true) /\ drep opt cap b' w' (if front then x :: l else l ++ [x])).
        { destruct front.
          - destruct (push_front_drep opt ord Hord cap Hcap b w l x R) as (b' & w' & E & R' & _). rewrite bool_decide_eq_true_2 in E by lia. rewrite decide_True in R' by lia. eauto.
          - destruct (push_back_drep opt ord Hord cap Hcap b w l x R) as (w' & E & R'). rewrite bool_decide_eq_true_2 in E by lia. rewrite decide_True in R' by lia. eauto. }
        destruct HS as (b' & w' & E & R').
        assert (S : odnear k (push_op front x d) (push_op front x w)) by (destruct front; [apply push_front_near|apply push_back_near]; auto; lia).
        rewrite E in S. destruct (push_op front x d) as [[d' r]| |]; cbn in S; try contradiction. destruct S as [-> S]. exists d', true. split; [reflexivity|]. split; [reflexivity|]. split; [eauto|].
        destruct front; rewrite ?app_length; cbn [length]; lia.
      + assert (El : length l = cap) by lia. pose proof N as ((N1 & N2 & N3 & N4) & N5 & N6 & N7). unfold push_op, d_push_front, d_push_back. rewrite Ef. cbv zeta. cbn [d_set_v d_set_begin d_set_end d_v d_begin d_end d_indices].
        set (v1 := v_set_n (d_v d) _). change (d_capacity (d_set_v d v1)) with (d_capacity d). change (d_capacity {| d_v := v1; d_begin := d_begin d; d_end := d_end d; d_indices := d_indices d |}) with (d_capacity d). rewrite Ec, En.
        destruct (Z.ltb_spec (len l + k) (Z.of_nat cap)); [|lia]. assert (HL : v_locks v1 = replicate cap false) by (cbn; rewrite N3; apply R).
        assert (HO : forall p, (p < cap)%nat -> v_occ v1 !! p = Some true) by (intros p Hp; cbn; rewrite N2; exact (occ_full _ _ _ _ R El Hp)).
        destruct front.
        * rewrite hang_push; [reflexivity|exact HL|rewrite N5; apply reconstruct_range; exact B1|apply HO; pose proof (reconstruct_range _ B1); rewrite N5; lia].
        * rewrite hang_push; [reflexivity|exact HL|rewrite N6; exact B2|apply HO; rewrite N6; lia].
  Qed.
  Lemma off_pop_ok (front : bool) (d : deq T) (l : list T) k : orep d l k -> match off_pop (T:=T) l k (if front then head l else last l) (if front then tail l else removelast l) with
    | Ret (l', k', r) => exists (d' : deq T) (o : option T), pop_op front d = Ret (d', o) /\ r = ROpt o /\ orep d' l' k'
    | UB => False | Hang => pop_op front d = Hang end.
  Proof.
    intros ((b & w & R & N) & HB). destruct (off_facts _ _ _ _ _ R N) as (En & Ec & Es & Ef & Ee). pose proof (eq_refl : INT_MAX = 2 ^ 31 - 1) as HI. pose proof (e_le _ _ _ _ _ R) as Hle. unfold off_pop.
    assert (Nl : dnear k (d_set_v d (v_log (d_v d) EvInitCopy)) (d_set_v w (v_log (d_v w) EvInitCopy))) by (destruct N as (A & B & C & D); split; [apply near_log; exact A|auto]).
    destruct (Z.leb_spec (len l + k) 0) as [H|H].
    - exists (d_set_v d (v_log (d_v d) EvInitCopy)), None. split; [|split; [reflexivity|]].
      + unfold pop_op, d_pop_front, d_pop_back. cbv zeta. change (d_empty (d_set_v d (v_log (d_v d) EvInitCopy))) with (d_empty d). rewrite Ee. destruct front; reflexivity.
      + split; [|exact HB]. exists b, (d_set_v w (v_log (d_v w) EvInitCopy)). split; [|exact Nl]. exact (drep_log opt cap b w l EvInitCopy R eq_refl).
    - pose proof (dnear_cap _ _ _ N) as Ecw. pose proof (bounds _ _ _ R) as [B1 B2]. destruct (decide (l = [])) as [-> |Hl].
      + replace (if front then head [] else last []) with (@None T) by (destruct front; reflexivity).
        pose proof N as ((N1 & N2 & N3 & N4) & N5 & N6 & N7). unfold pop_op, d_pop_front, d_pop_back. cbv zeta. set (d0 := d_set_v d (v_log (d_v d) EvInitCopy)).
        change (d_empty d0) with (d_empty d). change (v_n (d_v d0)) with (v_n (d_v d)). rewrite Ee, En. destruct (Z.ltb_spec 0 (len (@nil T) + k)); [|lia].
        set (d1 := d_set_v d0 _). change (d_capacity d1) with (d_capacity d). rewrite Ec. change (d_begin d1) with (d_begin d). change (d_end d1) with (d_end d).
        assert (HL : v_locks (d_v d1) = replicate cap false) by (cbn; rewrite N3; apply R).
        assert (HO : forall p, (p < cap)%nat -> v_occ (d_v d1) !! p = Some false) by (intros p Hp; cbn; rewrite N2; exact (occ_empty _ _ _ R Hp)).
        destruct front; cbn [d_set_begin d_set_end d_v].
        * rewrite hang_pop; [reflexivity|exact HL|rewrite N5; exact B1|apply HO; rewrite N5; lia].
        * rewrite hang_pop; [reflexivity|exact HL|rewrite N6; apply reconstruct_range; exact B2|apply HO; pose proof (reconstruct_range _ B2); rewrite N6; lia].
      + assert (H1 : (0 < length l)%nat) by (destruct l; [contradiction|cbn; lia]).
        assert (Fw : d_empty w = false) by (rewrite (empty_iff opt ord Hord cap _ _ _ R); lia).
        assert (Nw : v_n (d_v w) = len l) by exact (e_n _ _ _ _ _ R).
        assert (HS : exists y b' w', (if front then head l else last l) = Some y /\ pop_op front w = Ret (w', Some y) /\ drep opt cap b' w' (if front then tail l else removelast l)).
        { destruct front.
          - destruct (pop_front_drep opt ord Hord cap Hcap b w l R) as (b' & w' & E & R'). destruct l as [|y l]; [contradiction|]. exists y, b', w'. auto.
          - destruct (pop_back_drep opt ord Hord cap Hcap b w l R) as (w' & E & R'). destruct (last l) as [y|] eqn:El; [exists y, b, w'; auto|]. apply last_None in El. contradiction. }
        destruct HS as (y & b' & w' & Ey & E & R'). rewrite Ey.
        assert (S : odnear k (pop_op front d) (pop_op front w)) by (destruct front; [apply pop_front_near|apply pop_back_near]; auto; lia).
        rewrite E in S. destruct (pop_op front d) as [[d' r]| |]; cbn in S; try contradiction. destruct S as [-> S]. exists d', (Some y). split; [reflexivity|]. split; [reflexivity|]. split; [eauto|].
        assert (EL : Datatypes.S (length (if front then tail l else removelast l)) = length l); [|lia].
        destruct front; [destruct l; [contradiction|reflexivity]|]. destruct l as [|z l' _] using rev_ind; [contradiction|]. rewrite removelast_last, app_length. cbn. lia.
  Qed.

  Lemma valid_off (d w : deq T) b (l : list T) k : drep opt cap b w l -> dnear k d w -> d_valid d = (k =? 0).
  Proof.
    intros R N. destruct (off_facts _ _ _ _ _ R N) as (En & Ec & Es & _). pose proof (drep_valid opt ord Hord cap Hcap _ _ _ R) as HV. pose proof (drep_size opt ord Hord cap _ _ _ R) as Sw. pose proof (drep_cap _ _ _ _ _ R) as Cw.
    pose proof (e_le _ _ _ _ _ R) as Hle. destruct N as ((N1 & N2 & N3 & N4) & _). unfold d_valid, v_valid in *. change (v_capacity (d_v w)) with (d_capacity w) in HV. change (v_size (d_v w)) with (d_size w) in HV.
    change (v_capacity (d_v d)) with (d_capacity d). change (v_size (d_v d)) with (d_size d). rewrite Sw, Cw in HV. rewrite Es, Ec, N2, N3, En.
    destruct (Z.eqb_spec (Z.of_nat cap) 0); [lia|]. apply andb_true_iff in HV as [HV1 HV2]. apply andb_true_iff in HV1 as [HV1 HV3]. rewrite HV2, ?andb_true_r. apply Z.eqb_eq in HV3. rewrite <- HV3.
    destruct (Z.eqb_spec k 0) as [-> |]; lia.
  Qed.

  (** a deque without elements, made anew *)
  Definition anew (d w : deq T) (v : vec T) : deq T :=
    {| d_v := {| v_n := 0; v_data := v_data v; v_occ := replicate (length (v_occ v)) false; v_locks := v_locks v; v_ev := v_ev (d_v w) |}; d_begin := 0; d_end := 0; d_indices := d_indices d |}.
  Lemma anew_rep b (d w : deq T) (v : vec T) : drep opt cap b w [] -> d_indices d = d_indices w -> v_data v = v_data (d_v w) -> v_occ v = v_occ (d_v w) -> v_locks v = v_locks (d_v w) ->
    drep opt cap 0 (anew d w v) [].
  Proof.
    intros R H1 H2 H3 H4. split; cbn [anew d_v d_begin d_end d_indices v_n v_data v_occ v_locks v_ev]; rewrite ?H1, ?H2, ?H3, ?H4, ?replicate_length; auto; try apply R; try lia.
    - unfold ring_pos. cbn [length]. destruct (_ <? _)%nat eqn:E2; lia.
    - intros p Hp. rewrite lookup_replicate_2 by (rewrite (e_lo _ _ _ _ _ R); exact Hp). apply (f_equal Some). symmetry. apply bool_decide_eq_false_2. cbn. lia.
    - intros Ho. destruct (e_life _ _ _ _ _ R Ho) as [L1 L2]. split; [exact L1|]. intros p. rewrite L2. apply bool_decide_ext. cbn. lia.
  Qed.
  Lemma clear_near k (d w : deq T) : dnear k d w -> d_empty d = false -> d_empty w = false -> opt = true \/ d_full d = d_full w ->
    match d_clear opt ord d, d_clear opt ord w with Ret d', Ret w' => dnear 0 d' w' | UB, UB | Hang, Hang => True | _, _ => False end.
  Proof.
    intros N E1 E2 F. pose proof (dnear_cap _ _ _ N) as C. destruct N as (N & B & E & I). unfold d_clear. rewrite E1, E2. cbv zeta.
    assert (S : onear k
      (if opt then Ret (v_forget (d_v d)) else if d_full d then destroy_range ord 0 (d_capacity d) (d_v d) else if d_begin d <=? d_end d then destroy_range ord (d_begin d) (d_end d) (d_v d)
       else let! v := destroy_range ord 0 (d_end d) (d_v d) in destroy_range ord (d_begin d) (d_capacity d) v)
      (if opt then Ret (v_forget (d_v w)) else if d_full w then destroy_range ord 0 (d_capacity w) (d_v w) else if d_begin w <=? d_end w then destroy_range ord (d_begin w) (d_end w) (d_v w)
       else let! v := destroy_range ord 0 (d_end w) (d_v w) in destroy_range ord (d_begin w) (d_capacity w) v)).
    { destruct (bool_dec opt true) as [Eo|Eo]; [|apply not_true_is_false in Eo].
      - rewrite Eo. destruct N as (H1 & H2 & H3 & H4). repeat split; cbn; congruence.
      - rewrite Eo. rewrite B, E, C. destruct F as [F|F]; [congruence|]. rewrite F. destruct (d_full w); [apply destroy_range_near; exact N|]. destruct (_ <=? _); [apply destroy_range_near; exact N|].
        pose proof (destroy_range_near ord k 0 (d_end w) _ _ N) as S. destruct (destroy_range ord 0 _ (d_v d)), (destroy_range ord 0 _ (d_v w)); cbn in S |- *; try contradiction; auto. apply destroy_range_near. exact S. }
    destruct (if opt then Ret (v_forget (d_v d)) else _) as [v1| |], (if opt then Ret (v_forget (d_v w)) else _) as [v2| |]; cbn in S |- *; try contradiction; auto.
    destruct S as (H1 & H2 & H3 & H4). repeat split; cbn; congruence.
  Qed.
  Lemma clear_ok (d : deq T) (l : list T) k : orep d l k -> opt = true \/ 0 <= k ->
    match off_step opt (Z.of_nat cap) l k DClear with
    | Ret (l', k', r) => exists d', d_clear opt ord d = Ret d' /\ r = RUnit /\ orep d' l' k'
    | UB => d_clear opt ord d = UB | Hang => False end.
  Proof.
    intros ((b & w & R & N) & HB) Hd. destruct (off_facts _ _ _ _ _ R N) as (En & Ec & Es & Ef & Ee). pose proof (eq_refl : INT_MAX = 2 ^ 31 - 1) as HI. pose proof (e_le _ _ _ _ _ R) as Hle. cbn [off_step].
    destruct (Z.leb_spec (len l + k) 0) as [H|H]; [exists d; split; [unfold d_clear; rewrite Ee; reflexivity|split; [reflexivity|split; [eauto|exact HB]]]|].
    assert (ZERO : forall d' w' b', drep opt cap b' w' [] -> dnear 0 d' w' -> orep d' [] 0) by (intros d' w' b' R' N'; split; [eauto|cbn; lia]).
    assert (SAME : l <> [] -> opt = true \/ d_full d = d_full w -> exists d', d_clear opt ord d = Ret d' /\ orep d' [] 0).
    { intros Hl HF. assert (Fw : d_empty w = false) by (rewrite (empty_iff opt ord Hord cap _ _ _ R); destruct l; [contradiction|cbn [length]; lia]).
      pose proof (clear_near k d w N Ee Fw HF) as S. destruct (clear_drep opt ord Hord cap Hcap b w l R) as (b' & w' & E & R' & _). rewrite E in S.
      destruct (d_clear opt ord d) as [d'| |]; try contradiction. exists d'. split; [reflexivity|]. exact (ZERO _ _ _ R' S). }
    assert (GO : forall v, l = [] -> v_data v = v_data (d_v w) -> v_occ v = v_occ (d_v w) -> v_locks v = v_locks (d_v w) ->
      orep {| d_v := {| v_n := 0; v_data := v_data v; v_occ := replicate (length (v_occ v)) false; v_locks := v_locks v; v_ev := v_ev v |}; d_begin := 0; d_end := 0; d_indices := d_indices d |} [] 0).
    { intros v -> H1 H2 H3. destruct N as (_ & _ & _ & NI). apply (ZERO _ (anew d w v) 0%nat (anew_rep b d w v R NI H1 H2 H3)). repeat split. }
    assert (FW : d_full w = (len l =? Z.of_nat cap)) by exact (full_iff opt ord Hord cap _ _ _ R).
    pose proof N as ((N1 & N2 & N3 & N4) & NB & NE & NI).
    destruct (bool_dec opt true) as [Eo|Eo]; [|apply not_true_is_false in Eo]; rewrite Eo in *.
    - destruct (decide (l = [])) as [El|El].
      + eexists. split; [unfold d_clear; rewrite Ee; cbv zeta; cbn [obind]; reflexivity|]. split; [reflexivity|]. apply (GO (v_forget (d_v d)) El); cbn [v_forget v_data v_occ v_locks]; [|exact N2|exact N3].
        apply list_eq. intros p. subst l. rewrite N1. destruct (decide (p < cap)%nat) as [Hp|Hp].
        * rewrite (e_data _ _ _ _ _ R) by exact Hp. rewrite lookup_replicate_2 by (rewrite (e_ld _ _ _ _ _ R); exact Hp). reflexivity.
        * rewrite !lookup_ge_None_2; [reflexivity|rewrite (e_ld _ _ _ _ _ R); lia|rewrite replicate_length, (e_ld _ _ _ _ _ R); lia].
      + destruct (SAME El (or_introl eq_refl)) as (d' & E & O). eauto.
    - destruct Hd as [Hd|Hd]; [discriminate|]. destruct (Z.leb_spec (Z.of_nat cap) (len l + k)) as [H1|H1]; cbn [andb].
      + destruct (Z.ltb_spec (len l) (Z.of_nat cap)) as [H2|H2].
        * unfold d_clear. rewrite Ee, Ef. cbv zeta. unfold destroy_range. rewrite Ec, Z.sub_0_r, Nat2Z.id. change (Z.to_nat 0) with 0%nat.
          rewrite (destroy_dead ord Hord cap (ring_pos cap b (length l))); [reflexivity|apply ring_pos_lt; [apply R|lia]|].
          rewrite N1, (e_data _ _ _ _ _ R) by (apply ring_pos_lt; [apply R|lia]). apply (f_equal Some). rewrite dist_pos by (apply R || lia). apply lookup_ge_None_2. lia.
        * assert (HF : d_full d = d_full w) by (rewrite Ef, FW; lia). destruct (SAME ltac:(intros ->; cbn in *; lia) (or_intror HF)) as (d' & E & O). eauto.
      + destruct (decide (l = [])) as [El|El].
        * eexists. split; [|split; [reflexivity|exact (GO (d_v d) El N1 N2 N3)]]. subst l. unfold d_clear. rewrite Ee, Ef. cbv zeta.
          assert (Ebe : d_begin d = d_end d). { rewrite NB, NE, (e_begin _ _ _ _ _ R), (e_end _ _ _ _ _ R). unfold ring_pos. cbn [length]. pose proof (e_b _ _ _ _ _ R). destruct (_ <? _)%nat eqn:E2; lia. }
          rewrite Ebe, Z.leb_refl. unfold destroy_range. rewrite Z.sub_diag. unfold v_for_each. assert (Eo0 : ord 0%nat = []) by (apply Permutation_nil; symmetry; apply Hord). change (Z.to_nat 0) with 0%nat. rewrite Eo0. reflexivity.
        * assert (HF : d_full d = d_full w) by (rewrite Ef, FW; destruct (Z.eqb_spec (len l) (Z.of_nat cap)); lia). destruct (SAME El (or_intror HF)) as (d' & E & O). eauto.
  Qed.

  Lemma off_step_ok (d : deq T) (l : list T) k op : orep d l k -> described opt k op ->
    match off_step opt (Z.of_nat cap) l k op with
    | Ret (l', k', r) => exists d', deq_step opt ord d op = Ret (d', r) /\ orep d' l' k' /\ (k' = k \/ k' = 0)
    | UB => deq_step opt ord d op = UB | Hang => deq_step opt ord d op = Hang end.
  Proof.
    intros O Hd. pose proof O as ((b & w & R & N) & HB). destruct (off_facts _ _ _ _ _ R N) as (En & Ec & Es & Ef & Ee).
    destruct op as [x| |x| | | | | |n|n| | | |]; cbn [described] in Hd; try contradiction.
    - pose proof (off_push_ok false d l k x O) as H. cbn [off_step deq_step]. change (push_op false x d) with (d_push_back d x) in H. unfold off_push in *.
      destruct (Z.of_nat cap <=? len l + k); [|destruct (len l <? Z.of_nat cap)]; [| |rewrite H; reflexivity]; destruct H as (d' & b0 & E & Er & O'); rewrite E; exists d'; injection Er as ->; auto.
    - pose proof (off_pop_ok false d l k O) as H. cbn [off_step deq_step]. change (pop_op false d) with (d_pop_back d) in H. unfold off_pop in *. change (if false then head l else last l) with (last l) in H.
      destruct (len l + k <=? 0); [|destruct (last l)]; [| |rewrite H; reflexivity]; destruct H as (d' & b0 & E & Er & O'); rewrite E; exists d'; injection Er as <-; auto.
    - pose proof (off_push_ok true d l k x O) as H. cbn [off_step deq_step]. change (push_op true x d) with (d_push_front d x) in H. unfold off_push in *.
      destruct (Z.of_nat cap <=? len l + k); [|destruct (len l <? Z.of_nat cap)]; [| |rewrite H; reflexivity]; destruct H as (d' & b0 & E & Er & O'); rewrite E; exists d'; injection Er as ->; auto.
    - pose proof (off_pop_ok true d l k O) as H. cbn [off_step deq_step]. change (pop_op true d) with (d_pop_front d) in H. unfold off_pop in *. change (if true then head l else last l) with (head l) in H.
      destruct (len l + k <=? 0); [|destruct (head l)]; [| |rewrite H; reflexivity]; destruct H as (d' & b0 & E & Er & O'); rewrite E; exists d'; injection Er as <-; auto.
    - pose proof (clear_ok d l k O Hd) as H. cbn [off_step deq_step] in *. destruct (len l + k <=? 0); [|destruct opt; [|destruct (_ && _)]].
      + destruct H as (d' & E & _ & O'). rewrite E. exists d'. auto.
      + destruct H as (d' & E & _ & O'). rewrite E. exists d'. auto.
      + rewrite H. reflexivity.
      + destruct H as (d' & E & _ & O'). rewrite E. exists d'. auto.
    - cbn. rewrite Es. eauto.
    - cbn. rewrite Ee. eauto.
    - cbn. rewrite Ef. eauto.
    - cbn [off_step deq_step]. unfold d_front, d_index. destruct N as ((N1 & N2 & N3 & N4) & NB & NE & NI). rewrite Z.add_0_r, Ec, NB, (e_begin _ _ _ _ _ R), N1. pose proof (e_b _ _ _ _ _ R) as Hb.
      pose proof (eq_refl : INT_MAX = 2 ^ 31 - 1) as HI. assert (Hf : fits_int (Z.of_nat b) = true) by (unfold fits_int; lia). rewrite Hf. cbn [obind]. rewrite Z.rem_small by lia. rewrite (proj2 (Z.leb_le _ _)) by lia. rewrite Nat2Z.id.
      rewrite (e_data _ _ _ _ _ R) by exact Hb. assert (Ed : ring_dist cap b b = 0%nat) by (unfold ring_dist; rewrite Nat.ltb_irrefl; lia). rewrite Ed.
      destruct l as [|x l]; cbn; [reflexivity|]. exists d. auto.
    - cbn [off_step deq_step]. rewrite (valid_off d w b l k R N). eauto.
  Qed.
  Lemma off_run_ok ops : forall (d : deq T) (l : list T) k, orep d l k -> (forall op, op ∈ ops -> described opt k op) ->
    match off_run opt (Z.of_nat cap) l k ops with
    | Ret (l', k', rs) => exists d', deq_run opt ord d ops = Ret (d', rs) /\ orep d' l' k'
    | UB => deq_run opt ord d ops = UB | Hang => deq_run opt ord d ops = Hang end.
  Proof.
    induction ops as [|op ops IH]; intros d l k D Hfit; [cbn; eauto|]. cbn [off_run deq_run].
    pose proof (off_step_ok d l k op D (Hfit op ltac:(left))) as Hs. destruct (off_step opt (Z.of_nat cap) l k op) as [[[l1 k1] r]| |]; [|rewrite Hs; reflexivity|rewrite Hs; reflexivity].
    destruct Hs as (d1 & E1 & R1 & Hk). rewrite E1. cbn [obind]. specialize (IH d1 l1 k1 R1). assert (HF : forall o, o ∈ ops -> described opt k1 o).
    { intros o Ho. specialize (Hfit o (elem_of_list_further _ _ _ Ho)). destruct Hk as [-> | ->]; [exact Hfit|]. destruct o; cbn in *; auto. destruct Hfit; auto. right. lia. }
    specialize (IH HF). destruct (off_run opt (Z.of_nat cap) l1 k1 ops) as [[[l2 k2] rs]| |]; cbn [obind]; [|rewrite IH; reflexivity|rewrite IH; reflexivity].
    destruct IH as (d2 & E2 & R2). rewrite E2. cbn. eauto.
  Qed.
End off.

(** ** a deque at rest *)
Lemma constructs_list (ps : list nat) : NoDup ps -> forall live, (forall p, p ∈ ps -> live (InSlot p) = false) ->
  lifetime_ok live ((fun p => EvConstruct (InSlot p)) <$> ps) /\
  forall p, live_after live ((fun p => EvConstruct (InSlot p)) <$> ps) (InSlot p) = live (InSlot p) || bool_decide (p ∈ ps).
Proof.
  induction 1 as [|a ps Ha HN IH]; intros lv Hl.
  - split; [exact Logic.I|]. intros p. rewrite bool_decide_eq_false_2 by (apply not_elem_of_nil). cbn. rewrite orb_false_r. reflexivity.
  - rewrite fmap_cons. cbn [lifetime_ok live_after]. specialize (IH (fun q => if decide (q = InSlot a) then true else lv q)).
    destruct IH as [I1 I2]. { intros p Hp. rewrite decide_False by (intros [=]; congruence). apply Hl. right. exact Hp. }
    split; [split; [apply Hl; left|exact I1]|]. intros p. rewrite I2. destruct (decide (InSlot p = InSlot a)) as [[= ->]|Hne].
    + rewrite (bool_decide_eq_true_2 (a ∈ a :: ps)) by left. rewrite orb_true_r. reflexivity.
    + f_equal. apply bool_decide_ext. rewrite elem_of_cons. assert (p <> a) by congruence. tauto.
Qed.
(** no slot twice and none a negative number of times: between 0 and cap elements *)
Lemma gm_span cap g : (0 < cap)%nat -> (forall p, (p < cap)%nat -> 0 <= gm cap g p <= 1) -> 0 <= g_E g - g_B g <= Z.of_nat cap.
Proof.
  intros Hc H. set (c := Z.of_nat cap). assert (Hp : 0 < c) by (unfold c; lia).
  assert (UP : forall a, upto cap a (Z.to_nat (a mod c)) = a / c - 1).
  { intros a. unfold upto. pose proof (Z.mod_pos_bound a c Hp). pose proof (Z.div_mod a c ltac:(lia)). fold c. symmetry. apply Z.div_unique_pos with (r := c - 1); lia. }
  assert (UP1 : forall a n, n = c * n / c -> upto cap (a + 1 + n) (Z.to_nat (a mod c)) = (a + n - a mod c) / c).
  { intros a n _. unfold upto. pose proof (Z.mod_pos_bound a c Hp). fold c. f_equal. lia. }
  assert (MONO : forall a b s, a <= b -> upto cap a s <= upto cap b s) by (intros a b s Hab; unfold upto; apply Z.div_le_mono; lia).
  pose proof (Z.mod_pos_bound (g_B g) c Hp) as MB. pose proof (Z.mod_pos_bound (g_E g) c Hp) as ME.
  pose proof (Z.div_mod (g_B g) c ltac:(lia)) as DB. pose proof (Z.div_mod (g_E g) c ltac:(lia)) as DE.
  pose proof (H (Z.to_nat (g_B g mod c)) ltac:(unfold c in *; lia)) as HB. pose proof (H (Z.to_nat (g_E g mod c)) ltac:(unfold c in *; lia)) as HE.
  unfold gm in HB, HE. rewrite UP in HB, HE. split.
  - destruct (Z_lt_le_dec (g_E g) (g_B g)) as [Hlt|]; [|lia]. exfalso. pose proof (MONO (g_E g + 1) (g_B g) (Z.to_nat (g_E g mod c)) ltac:(lia)) as M.
    assert (E1 : upto cap (g_E g + 1) (Z.to_nat (g_E g mod c)) = g_E g / c). { unfold upto. fold c. symmetry. apply Z.div_unique_pos with (r := 0); lia. } lia.
  - destruct (Z_lt_le_dec c (g_E g - g_B g)) as [Hlt|]; [|lia]. exfalso. pose proof (MONO (g_B g + c + 1) (g_E g) (Z.to_nat (g_B g mod c)) ltac:(lia)) as M.
    assert (E1 : upto cap (g_B g + c + 1) (Z.to_nat (g_B g mod c)) = g_B g / c + 1). { unfold upto. fold c. symmetry. apply Z.div_unique_pos with (r := 0); lia. } lia.
Qed.

Section rest.
  Context {T : Type} (opt : bool) (ord : nat -> list nat) (Hord : forall n, ord n ≡ₚ seq 0 n) (cap b : nat) (l : list T) (Hb : (b < cap)%nat) (Hcap : 0 < Z.of_nat cap <= INT_MAX) (Hl : (length l <= cap)%nat).
  Context (progs : list (list (qop T))) (Hwf : forall p op, p ∈ progs -> op ∈ p -> op_wf op).
  Lemma rest_orep s ls : reach (qstep (dctl cap)) (deq_conc_start cap b l, q_start progs) (s, ls) -> quiescent ls -> - 2 ^ 31 <= v_n (d_v (as_deq s)) <= INT_MAX ->
    exists L, L ≡ₚ stored (q_data s) /\ orep opt cap (as_deq s) L (rejected true progs ls - rejected false progs ls).
  Proof.
    intros R Hq HB. destruct (deq_reject cap b l Hb ltac:(lia) Hl progs Hwf s ls R Hq) as [V1 _]. set (k := rejected true progs ls - rejected false progs ls) in *.
    destruct (dreach_inv cap b l Hb ltac:(lia) Hl progs Hwf s ls R) as (sg & -> & Rg & I).
    destruct (at_rest cap (gm cap) (gok cap) _ _ _ I Hq) as [Hrest _]. destruct (i_len _ _ _ _ _ _ I) as (L1 & L2 & L3). pose proof (i_cok _ _ _ _ _ _ I) as Hok.
    set (g := q_c sg) in *. assert (HS : 0 <= g_E g - g_B g <= Z.of_nat cap).
    { apply gm_span; [lia|]. intros p Hp. destruct (Hrest p Hp) as (_ & H2 & _). rewrite <- H2. destruct (lk (q_occ sg) p); cbn; lia. }
    set (B := Z.to_nat (c_begin (g_c g))). set (n := Z.to_nat (g_E g - g_B g)). destruct Hok as [OB OE].
    pose proof (Z.mod_pos_bound (g_B g) (Z.of_nat cap) ltac:(lia)) as MB. assert (HBc : (B < cap)%nat) by (unfold B; rewrite OB; lia).
    assert (Hocc : forall p, (p < cap)%nat -> lk (q_occ sg) p = bool_decide (ring_dist cap B p < n)%nat).
    { intros p Hp. destruct (Hrest p Hp) as (_ & H2 & _). rewrite gm_ring in H2 by (assumption || lia || (split; assumption)). fold B in H2. destruct (lk (q_occ sg) p);
        destruct (Z.ltb_spec (Z.of_nat (ring_dist cap B p)) (g_E g - g_B g)); cbn in H2; try lia; symmetry; [apply bool_decide_eq_true_2|apply bool_decide_eq_false_2]; unfold n; lia. }
    assert (Hlive : forall i, (i < n)%nat -> exists y, lkd (q_data sg) (ring_pos cap B i) = Some y).
    { intros i Hi. assert (Hp : (ring_pos cap B i < cap)%nat) by (apply ring_pos_lt; lia). destruct (Hrest _ Hp) as (_ & _ & H3). rewrite Hocc in H3 by exact Hp. rewrite dist_pos in H3 by lia.
      rewrite bool_decide_eq_true_2 in H3 by exact Hi. destruct (lkd (q_data sg) (ring_pos cap B i)); [eauto|discriminate]. }
    assert (HLs : exists L : list T, length L = n /\ forall i, (i < n)%nat -> L !! i = lkd (q_data sg) (ring_pos cap B i)).
    { clear - Hlive. induction n as [|n IH]; [exists []; split; [reflexivity|lia]|]. destruct IH as (L & E1 & E2); [auto with lia|]. destruct (Hlive n ltac:(lia)) as [y Hy]. exists (L ++ [y]). split; [rewrite app_length; cbn; lia|].
      intros i Hi. destruct (decide (i = n)) as [-> |]; [rewrite <- E1 at 1; rewrite list_lookup_middle by reflexivity; congruence|]. rewrite lookup_app_l by lia. apply E2. lia. }
    destruct HLs as (L & EL & HL). exists L.
    assert (Hdata : forall p, (p < cap)%nat -> q_data sg !! p = Some (L !! ring_dist cap B p)).
    { intros p Hp. rewrite lkd_Some by lia. apply (f_equal Some). destruct (decide (ring_dist cap B p < n)%nat) as [Hd|Hd].
      - rewrite (HL _ Hd), pos_dist by lia. reflexivity.
      - rewrite (lookup_ge_None_2 L) by lia. destruct (Hrest p Hp) as (_ & _ & H3). rewrite Hocc in H3 by exact Hp. rewrite bool_decide_eq_false_2 in H3 by exact Hd. destruct (lkd (q_data sg) p); [discriminate|reflexivity]. }
    assert (Ed : q_data sg = q_data (deq_conc_start cap B L)).
    { apply list_eq. intros p. destruct (decide (p < cap)%nat) as [Hp|Hp].
      - rewrite Hdata by exact Hp. cbn. rewrite list_lookup_fmap, lookup_seq_lt by exact Hp. reflexivity.
      - rewrite !lookup_ge_None_2; [reflexivity|cbn; rewrite fmap_length, seq_length; lia|lia]. }
    assert (HP : stored (q_data sg) ≡ₚ L) by (rewrite Ed; apply dstored_start; lia).
    change (q_data (er_s g_c sg)) with (q_data sg). split; [symmetry; exact HP|].
    change (q_data (er_s g_c sg)) with (q_data sg) in V1. assert (En : v_n (d_v (as_deq (er_s g_c sg))) = Z.of_nat (length L) + k) by (rewrite V1, HP; unfold k; lia).
    split; [|rewrite <- En; exact HB].
    set (D := as_deq (er_s g_c sg)) in *.
    exists B, {| d_v := {| v_n := Z.of_nat (length L); v_data := q_data sg; v_occ := q_occ sg; v_locks := q_locks sg; v_ev := (fun p => EvConstruct (InSlot p)) <$> occupied_slots cap B L |};
                 d_begin := d_begin D; d_end := d_end D; d_indices := d_indices D |}.
    split; [|repeat split; exact En]. change (d_begin D) with (c_begin (g_c g)). change (d_end D) with (c_end (g_c g)). change (d_indices D) with (replicate (length (q_occ sg)) 0).
    split; cbn [d_v d_begin d_end d_indices v_n v_data v_occ v_locks v_ev]; rewrite ?replicate_length; auto; try lia.
    - rewrite OE. assert (EB : g_B g mod Z.of_nat cap = Z.of_nat B) by (unfold B; rewrite OB; lia). replace (g_E g) with (g_B g + Z.of_nat n) by (unfold n; lia). rewrite <- Zplus_mod_idemp_l, EB, EL.
      unfold ring_pos. destruct (Nat.ltb_spec (B + n) cap); [rewrite Z.mod_small; lia|]. symmetry. apply Z.mod_unique with (q := 1); lia.
    - apply list_eq. intros p. destruct (decide (p < cap)%nat) as [Hp|Hp].
      + rewrite lookup_replicate_2 by exact Hp. rewrite lk_Some by lia. destruct (Hrest p Hp) as (-> & _). reflexivity.
      + rewrite !lookup_ge_None_2; [reflexivity|rewrite replicate_length; lia|lia].
    - intros p Hp. rewrite lk_Some by lia. rewrite Hocc, EL by exact Hp. reflexivity.
    - intros _. rewrite slot_events_constructs. destruct (constructs_list (occupied_slots cap B L) ltac:(apply NoDup_filter, NoDup_seq) nothing ltac:(reflexivity)) as [C1 C2]. split; [exact C1|].
      intros p. rewrite C2. cbn [nothing orb]. apply bool_decide_ext. apply elem_occupied.
  Qed.

  Lemma after_off s ls ops : reach (qstep (dctl cap)) (deq_conc_start cap b l, q_start progs) (s, ls) -> quiescent ls -> - 2 ^ 31 <= v_n (d_v (as_deq s)) <= INT_MAX ->
    (forall op, op ∈ ops -> described opt (rejected true progs ls - rejected false progs ls) op) ->
    exists L, L ≡ₚ stored (q_data s) /\
    match off_run opt (Z.of_nat cap) L (rejected true progs ls - rejected false progs ls) ops with
    | Ret (l', k', rs) => exists d', deq_run opt ord (as_deq s) ops = Ret (d', rs) /\ stored (v_data (d_v d')) ≡ₚ l' /\ (d_valid d' = true <-> k' = 0)
    | UB => deq_run opt ord (as_deq s) ops = UB
    | Hang => deq_run opt ord (as_deq s) ops = Hang
    end.
  Proof.
    intros R Hq HB Hf. destruct (rest_orep s ls R Hq HB) as (L & P & O). exists L. split; [exact P|]. pose proof (off_run_ok opt ord Hord cap Hcap ops _ _ _ O Hf) as H.
    destruct (off_run _ _ _ _ ops) as [[[l' k'] rs]| |]; auto. destruct H as (d' & E & ((b' & w & R' & N) & _)). exists d'. split; [exact E|]. split.
    - destruct N as ((-> & _) & _). assert (E1 : v_data (d_v w) = q_data (deq_conc_start cap b' l')).
      { apply list_eq. intros p. destruct (decide (p < cap)%nat) as [Hp|Hp].
        - rewrite (e_data _ _ _ _ _ R') by exact Hp. cbn. rewrite list_lookup_fmap, lookup_seq_lt by exact Hp. reflexivity.
        - rewrite !lookup_ge_None_2; [reflexivity|cbn; rewrite fmap_length, seq_length; lia|rewrite (e_ld _ _ _ _ _ R'); lia]. }
      rewrite E1. apply dstored_start; [exact (e_b _ _ _ _ _ R')|exact (e_le _ _ _ _ _ R')].
    - rewrite (valid_off opt ord Hord cap Hcap _ _ _ _ _ R' N). apply Z.eqb_eq.
  Qed.
End rest.

(** a counter that is right *)
Lemma off_step_zero {T} opt (cap : Z) (l : list T) op : 0 < cap -> Z.of_nat (length l) <= cap -> described opt 0 op ->
  off_step opt cap l 0 op = (let! (l', r) := spec_dstep cap l op in Ret (l', 0, r)) /\ match spec_dstep cap l op with Ret (l', _) => Z.of_nat (length l') <= cap | UB => True | Hang => False end.
Proof.
  intros Hc Hl Hd. destruct op as [x| |x| | | | | |n|n| | | |]; cbn [described] in Hd; try contradiction; cbn [off_step spec_dstep]; unfold off_push, off_pop; rewrite ?Z.add_0_r.
  - destruct (Z.leb_spec cap (Z.of_nat (length l))), (Z.ltb_spec (Z.of_nat (length l)) cap); try lia; cbn; (split; [reflexivity|]); rewrite ?app_length; cbn; lia.
  - destruct l as [|z l _] using rev_ind; [cbn; split; [reflexivity|lia]|]. rewrite last_snoc, removelast_last. rewrite app_length in *. cbn [length] in *. destruct (Z.leb_spec (Z.of_nat (length l + 1)) 0); [lia|]. cbn. split; [reflexivity|lia].
  - destruct (Z.leb_spec cap (Z.of_nat (length l))), (Z.ltb_spec (Z.of_nat (length l)) cap); try lia; cbn; (split; [reflexivity|]); lia.
  - destruct l as [|z l]; [cbn; split; [reflexivity|lia]|]. cbn [head tail length] in *. destruct (Z.leb_spec (Z.of_nat (S (length l))) 0); [lia|]. cbn. split; [reflexivity|lia].
  - split; [|cbn; lia]. destruct (Z.leb_spec (Z.of_nat (length l)) 0) as [H|H]; [destruct l; [reflexivity|cbn in H; lia]|]. destruct opt; [reflexivity|].
    destruct (Z.leb_spec cap (Z.of_nat (length l))), (Z.ltb_spec (Z.of_nat (length l)) cap); try lia; reflexivity.
  - cbn. split; [f_equal; f_equal; f_equal; lia|lia].
  - cbn. split; [|lia]. destruct (Z.leb_spec (Z.of_nat (length l)) 0), (Z.eqb_spec (Z.of_nat (length l)) 0); try reflexivity; lia.
  - cbn. split; [|lia]. destruct (Z.leb_spec cap (Z.of_nat (length l))), (Z.eqb_spec (Z.of_nat (length l)) cap); try reflexivity; lia.
  - destruct (head l); cbn; auto.
  - cbn. split; [reflexivity|lia].
Qed.
Lemma off_run_zero {T} opt (cap : Z) ops : 0 < cap -> forall l : list T, Z.of_nat (length l) <= cap -> (forall op, op ∈ ops -> described opt 0 op) ->
  off_run opt cap l 0 ops = (let! (l', rs) := spec_drun cap l ops in Ret (l', 0, rs)) /\ spec_drun cap l ops <> Hang.
Proof.
  intros Hc. induction ops as [|op ops IH]; intros l Hl Hd; [cbn; split; [reflexivity|discriminate]|]. cbn [off_run spec_drun].
  destruct (off_step_zero opt cap l op Hc Hl (Hd op ltac:(left))) as [-> H2]. destruct (spec_dstep cap l op) as [[l1 r]| |]; cbn [obind]; [|split; [reflexivity|discriminate]|contradiction].
  destruct (IH l1 H2 (fun o Ho => Hd o (elem_of_list_further _ _ _ Ho))) as [-> H3]. destruct (spec_drun cap l1 ops) as [[l2 rs]| |]; cbn [obind]; split; (reflexivity || discriminate || congruence).
Qed.
Lemma after_balanced {T : Type} (opt : bool) (ord : nat -> list nat) (Hord : forall n, ord n ≡ₚ seq 0 n) (cap b : nat) (l : list T) (Hb : (b < cap)%nat) (Hcap : 0 < Z.of_nat cap <= INT_MAX) (Hl : (length l <= cap)%nat)
  (progs : list (list (qop T))) (Hwf : forall p op, p ∈ progs -> op ∈ p -> op_wf op) s ls ops : reach (qstep (dctl cap)) (deq_conc_start cap b l, q_start progs) (s, ls) -> quiescent ls ->
  rejected true progs ls = rejected false progs ls -> (forall op, op ∈ ops -> described opt 0 op) ->
  exists L, L ≡ₚ stored (q_data s) /\
  match spec_drun (Z.of_nat cap) L ops with
  | Ret (l', rs) => exists d', deq_run opt ord (as_deq s) ops = Ret (d', rs) /\ stored (v_data (d_v d')) ≡ₚ l' /\ d_valid d' = true
  | UB => deq_run opt ord (as_deq s) ops = UB
  | Hang => False
  end.
Proof.
  intros R Hq Hr Hd. pose proof (eq_refl : INT_MAX = 2 ^ 31 - 1) as HI. destruct (deq_reject cap b l Hb ltac:(lia) Hl progs Hwf s ls R Hq) as [V1 _].
  assert (Hlen : (length (stored (q_data s)) <= cap)%nat).
  { destruct (dreach_inv cap b l Hb ltac:(lia) Hl progs Hwf s ls R) as (sg & -> & _ & I). destruct (i_len _ _ _ _ _ _ I) as (L1 & _). change (q_data (er_s g_c sg)) with (q_data sg).
    rewrite <- L1. unfold stored. clear. induction (q_data sg) as [|[x|] d IH]; cbn; unfold id in *; cbn; lia. }
  pose proof (after_off opt ord Hord cap b l Hb Hcap Hl progs Hwf s ls ops R Hq ltac:(lia)) as H. replace (rejected true progs ls - rejected false progs ls) with 0 in H by lia.
  destruct (H Hd) as (L & P & H1). exists L. split; [exact P|]. destruct (off_run_zero opt (Z.of_nat cap) ops ltac:(lia) L ltac:(rewrite P; lia) Hd) as [E N]. rewrite E in H1.
  destruct (spec_drun (Z.of_nat cap) L ops) as [[l' rs]| |]; cbn [obind] in H1; auto. destruct H1 as (d' & E1 & E2 & E3). exists d'. split; [exact E1|]. split; [exact E2|]. apply E3. reflexivity.
Qed.
