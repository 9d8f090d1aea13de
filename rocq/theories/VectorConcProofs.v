(** Concurrent vector: instance of the slot protocol. *)
From Verif Require Import Base Conc SlotModel SlotSpec SlotProofs Lifetime VectorModel VectorSpec VectorProofs.

Local Arguments pushed_by : simpl never.
Local Arguments popped_by : simpl never.

Definition vm (c : Z) (s : nat) : Z := if Z.of_nat s <? c then 1 else 0.

Lemma vctl_ok cap : forall c k n, True -> (n <= 2)%nat ->
  match vctl cap c k n with
  | CGo c' n' => True /\ (n < n' <= 2)%nat /\ forall s, (s < cap)%nat -> vm c' s = vm c s
  | CReject => True
  | COob c' => True /\ forall s, (s < cap)%nat -> vm c' s = vm c s
  | CClaim c' p => True /\ (p < cap)%nat /\ forall s, (s < cap)%nat -> vm c' s = vm c s + (if is_push k then at_ s p else - at_ s p)
  end.
Proof.
  intros c k n _ Hn. unfold vctl.
  assert (Hat : forall s p, at_ s p = if decide (s = p) then 1 else 0) by reflexivity.
  destruct k, n as [|n]; auto.
  - destruct (clamp_size _ _ =? _); auto.
  - destruct ((0 <=? c) && (c <? Z.of_nat cap)) eqn:E.
    + split; [exact I|]. split; [lia|]. intros s Hs. unfold vm. cbn [is_push]. rewrite Hat.
      destruct (decide (s = Z.to_nat c)), (Z.ltb_spec (Z.of_nat s) (c + 1)), (Z.ltb_spec (Z.of_nat s) c); lia.
    + split; [exact I|]. intros s Hs. unfold vm. destruct (Z.ltb_spec (Z.of_nat s) (c + 1)), (Z.ltb_spec (Z.of_nat s) c); lia.
  - destruct (clamp_size _ _ =? _); auto.
  - destruct ((0 <=? c - 1) && (c - 1 <? Z.of_nat cap)) eqn:E.
    + split; [exact I|]. split; [lia|]. intros s Hs. unfold vm. cbn [is_push]. rewrite Hat.
      destruct (decide (s = Z.to_nat (c - 1))), (Z.ltb_spec (Z.of_nat s) (c - 1)), (Z.ltb_spec (Z.of_nat s) c); lia.
    + split; [exact I|]. intros s Hs. unfold vm. destruct (Z.ltb_spec (Z.of_nat s) (c - 1)), (Z.ltb_spec (Z.of_nat s) c); lia.
Qed.

Lemma vm_range c s : 0 <= vm c s <= 1.
Proof. unfold vm. destruct (_ <? _); lia. Qed.

Lemma clamp_range cap n : 0 <= cap -> 0 <= clamp_size cap n <= cap.
Proof. unfold clamp_size. intros H. destruct (Z.ltb_spec n 0); [lia|]. destruct (Z.ltb_spec cap n); lia. Qed.

Section vconc.
  Context {T : Type} (cap : nat) (l : list T) (Hl : (length l <= cap)%nat).
  Context (progs : list (list (qop T))) (Hwf : forall p op, p ∈ progs -> op ∈ p -> vector_call op).

  Notation start := (vec_conc_start cap l, q_start progs).
  Notation vinv := (inv (T:=T) (C:=Z) cap vm (fun _ => True)).
  Notation w0 := (fun w => sumZ (wd w) (q_data (vec_conc_start cap l))).

  Lemma start_lookup p : (p < cap)%nat ->
    lkd (q_data (vec_conc_start cap l)) p = l !! p /\ lk (q_occ (vec_conc_start cap l)) p = bool_decide (p < length l)%nat.
  Proof.
    intros Hp. unfold lkd, lk, vec_conc_start. cbn [q_data q_occ].
    destruct (decide (p < length l)%nat) as [H|H].
    - rewrite !lookup_app_l by (rewrite ?fmap_length, ?replicate_length; lia). rewrite list_lookup_fmap, lookup_replicate_2 by lia.
      rewrite bool_decide_eq_true_2 by lia. destruct (lookup_lt_is_Some_2 l p H) as [x Hx]. rewrite Hx. auto.
    - rewrite !lookup_app_r by (rewrite ?fmap_length, ?replicate_length; lia). rewrite !lookup_replicate_2 by (rewrite ?fmap_length, ?replicate_length; lia).
      rewrite bool_decide_eq_false_2 by lia. rewrite lookup_ge_None_2 by lia. auto.
  Qed.

  Lemma vector_call_wf op : vector_call (T:=T) op -> op_wf op.
  Proof. destruct op as [[] x|[]]; cbn; tauto. Qed.

  Lemma start_inv : vinv w0 (vec_conc_start cap l) (q_start progs).
  Proof.
    apply inv_init; auto.
    - cbn. rewrite app_length, fmap_length, replicate_length. lia.
    - cbn. rewrite app_length, !replicate_length. lia.
    - intros p op Hp Hop. apply vector_call_wf. eapply Hwf; eauto.
    - intros p Hp. destruct (start_lookup p Hp) as [_ ->]. unfold vm. cbn.
      destruct (bool_decide_reflect (p < length l)%nat), (Z.ltb_spec (Z.of_nat p) (Z.of_nat (length l))); cbn; lia.
    - intros p Hp. destruct (start_lookup p Hp) as [-> ->]. destruct (decide (p < length l)%nat) as [H|H].
      + destruct (lookup_lt_is_Some_2 l p H) as [x ->]. rewrite bool_decide_eq_true_2 by exact H. reflexivity.
      + rewrite lookup_ge_None_2 by lia. rewrite bool_decide_eq_false_2 by exact H. reflexivity.
  Qed.

  Lemma reach_inv s ls : reach (qstep (vctl cap)) start (s, ls) -> vinv w0 s ls.
  Proof. intros R. eapply (inv_reach (vctl cap) cap vm (fun _ => True) (vctl_ok cap)); [exact start_inv|exact R]. Qed.

  Lemma stored_start : stored (q_data (vec_conc_start cap l)) = l.
  Proof.
    unfold stored, vec_conc_start. cbn [q_data]. rewrite omap_app.
    assert (E1 : omap id (Some <$> l) = l) by (clear; induction l as [|x l' IH]; [reflexivity|]; cbn; unfold id in *; cbn; rewrite IH; reflexivity).
    assert (E2 : forall n, omap id (replicate n (@None T)) = []) by (induction n as [|n IH]; [reflexivity|]; exact IH).
    rewrite E1, E2, app_nil_r. reflexivity.
  Qed.

  Lemma vec_conservation `{EqDecision T} s ls : reach (qstep (vctl cap)) start (s, ls) -> l ++ all_pushed ls ≡ₚ all_popped ls ++ stored (q_data s).
  Proof.
    intros R. pose proof (reach_inv _ _ R) as I. apply sumZ_perm. intros w. rewrite !sumZ_app.
    rewrite <- stored_start at 1. rewrite !sumZ_stored. unfold all_pushed, all_popped. rewrite !sumZ_bind.
    exact (i_cons _ _ _ _ _ _ I w).
  Qed.

  Lemma vec_access s ls : reach (qstep (vctl cap)) start (s, ls) ->
    (forall i t, ls !! i = Some t -> q_prog t <> [] -> qstep (vctl cap) i s t <> None) /\
    (forall i j ti tj p, ls !! i = Some ti -> ls !! j = Some tj -> element_access ti = Some p -> element_access tj = Some p -> i = j) /\
    (forall i t p, ls !! i = Some t -> element_access t = Some p -> (p < cap)%nat /\
       exists d, q_data s !! p = Some d /\ (q_pc t = QConstruct p -> d = None) /\ (q_pc t <> QConstruct p -> d <> None)).
  Proof.
    intros R. pose proof (reach_inv _ _ R) as I. split; [|split].
    - intros i t Hi Hne. destruct (not_stuck (vctl cap) cap vm (fun _ => True) _ _ _ _ _ I Hi Hne) as (s' & t' & ->). discriminate.
    - intros i j ti tj p. apply (no_race cap vm (fun _ => True) _ _ _ _ _ _ _ _ I).
    - intros i t p Hi Ha.
      assert (Hp : (p < cap)%nat) by (eapply access_bound; [eapply (i_tok _ _ _ _ _ _ I), elem_of_list_lookup_2; exact Hi|exact Ha]).
      split; [exact Hp|]. exists (lkd (q_data s) p). destruct (i_len _ _ _ _ _ _ I) as (L1 & _ & _). rewrite lkd_Some by lia. split; [reflexivity|].
      unfold element_access in Ha. assert (Hne : q_prog t <> []) by (destruct (q_prog t); discriminate || congruence).
      pose proof (lifetime_at cap vm (fun _ => True) _ _ _ _ _ I Hi Hne) as HL.
      destruct (q_prog t); [discriminate|]. destruct (q_pc t); try discriminate; injection Ha as ->.
      + auto.
      + destruct HL as [y ->]. split; [discriminate|discriminate].
      + rewrite HL. split; [discriminate|discriminate].
  Qed.

  Lemma vec_can_finish s ls : reach (qstep (vctl cap)) start (s, ls) -> exists s' ls', reach (qstep (vctl cap)) (s, ls) (s', ls') /\ finished ls'.
  Proof.
    intros R. apply (can_finish (vctl cap) cap vm (fun _ => True) (vctl_ok cap) w0); [intros; apply vm_range|]. apply reach_inv. exact R.
  Qed.

  (** ** counters and logs *)
  Definition bal (t : qthread T) : Z :=
    Z.of_nat (length (pushed_by (q_log t))) - Z.of_nat (length (popped_by (q_log t))) +
    (if claimed t then (if pushing t then 1 else -1) else 0).

  Lemma bal_step s i t s' t' : tok cap t -> (forall op, op ∈ q_prog t -> vector_call op) -> qstep (vctl cap) i s t = Some (s', t') ->
    OutOfBounds ∉ q_log t' -> OutOfBounds ∉ q_log t /\ q_c s' - q_c s = bal t' - bal t /\ (forall op, op ∈ q_prog t' -> vector_call op).
  Proof.
    intros [_ Hpc] Hv E Hno. unfold qstep in E. destruct (q_prog t) as [|op rest] eqn:Epr; [discriminate|].
    assert (Hgo : forall pc c, t' = goto t pc -> s' = with_c s c \/ q_c s' = c -> c = q_c s ->
       claimed (goto t pc) = claimed t -> OutOfBounds ∉ q_log t /\ q_c s' - q_c s = bal t' - bal t /\ (forall op, op ∈ q_prog t' -> vector_call op)).
    { intros pc c -> Hs -> Hcl. split; [exact Hno|]. split.
      - unfold bal. rewrite Hcl. cbn [goto q_log]. change (pushing (goto t pc)) with (pushing t). destruct Hs as [-> | Hs]; [cbn [with_c q_c]|rewrite Hs]; lia.
      - cbn. rewrite Epr. exact Hv. }
    assert (Htl : forall r, OutOfBounds ∉ q_log (finish t r) -> OutOfBounds ∉ q_log t).
    { intros r H Hin. apply H. cbn. apply elem_of_app. left. exact Hin. }
    assert (Hvt : forall r op, op ∈ q_prog (finish t r) -> vector_call op).
    { intros r o Ho. cbn in Ho. rewrite Epr in Ho. apply Hv. right. exact Ho. }
    unfold claimed in Hgo.
    destruct (q_pc t) as [|n|p|p|p|p|p|p|p y|p r] eqn:Epc.
    - injection E as <- <-. eapply Hgo; eauto.
    - destruct (vctl cap (q_c s) (kind_of op) n) as [c' n'| |c'|c' p] eqn:Ec; injection E as <- <-.
      + eapply (Hgo _ c'); eauto. pose proof (Hv op ltac:(left)) as Ho. unfold vctl in Ec.
        destruct op as [[] x|[]]; cbn in Ho, Ec; try contradiction; destruct n as [|n];
          repeat match type of Ec with context [if ?b then _ else _] => destruct b end; congruence.
      + split; [eapply Htl; exact Hno|]. split; [|exact (Hvt _)]. unfold bal, claimed. rewrite Epc. cbn [finish q_log q_pc].
        rewrite pushed_snoc, popped_snoc, !app_length. unfold pushed_by, popped_by. cbn. lia.
      + exfalso. apply Hno. cbn. apply elem_of_app. right. left.
      + split; [exact Hno|]. split; [|cbn; rewrite Epr; exact Hv]. unfold bal, claimed. rewrite Epc. cbn [goto q_log q_pc with_c q_c].
        pose proof (Hv op ltac:(left)) as Ho. unfold vctl in Ec. unfold pushing. cbn [goto q_prog]. rewrite Epr.
        destruct op as [[] x|[]]; cbn in Ho, Ec; try contradiction; destruct n as [|n];
          repeat match type of Ec with context [if ?b then _ else _] => destruct b end; try discriminate; injection Ec as <- <-; lia.
    - destruct (q_locks s !! p) as [[]|]; try discriminate; injection E as <- <-.
      + split; [exact Hno|]. split; [lia|]. rewrite Epr. exact Hv.
      + eapply Hgo; eauto.
    - destruct (q_occ s !! p) as [b|]; [|discriminate]. destruct op; injection E as <- <-; (eapply Hgo; eauto; destruct b; reflexivity).
    - destruct op; [|discriminate]. injection E as <- <-. eapply Hgo; eauto.
    - destruct op; [|discriminate]. injection E as <- <-. eapply Hgo; eauto.
    - injection E as <- <-. eapply Hgo; eauto.
    - destruct (q_data s !! p) as [[y|]|]; try discriminate. injection E as <- <-. eapply Hgo; eauto.
    - injection E as <- <-. eapply Hgo; eauto.
    - destruct r as [r|]; injection E as <- <-.
      + split; [eapply Htl; exact Hno|]. split; [|exact (Hvt _)]. unfold bal, claimed. rewrite Epc. cbn [finish q_log q_pc with_lock q_c].
        rewrite pushed_snoc, popped_snoc, !app_length. destruct Hpc as (_ & _ & Hr).
        destruct r; try contradiction.
        * destruct Hr as (k & rest' & Hr). injection Hr as -> ->. unfold pushing. rewrite Epr. unfold pushed_by, popped_by. cbn. lia.
        * rewrite Hr. unfold pushed_by, popped_by. cbn. lia.
      + eapply Hgo; eauto.
  Qed.

  Lemma bal_reach s ls : reach (qstep (vctl cap)) start (s, ls) -> no_oob ls -> q_c s = Z.of_nat (length l) + sumZ bal ls.
  Proof.
    intros R.
    assert (HI : vinv w0 s ls /\ (forall t, t ∈ ls -> forall op, op ∈ q_prog t -> vector_call op) /\ (no_oob ls -> q_c s = Z.of_nat (length l) + sumZ bal ls)); [|apply HI].
    refine (invariant (qstep (vctl cap)) (fun c => vinv w0 c.1 c.2 /\ (forall t, t ∈ c.2 -> forall op, op ∈ q_prog t -> vector_call op) /\
       (no_oob c.2 -> q_c c.1 = Z.of_nat (length l) + sumZ bal c.2)) _ start (s, ls) _ R).
    - intros c c' (I & Hv & Hb) Hs. destruct Hs as [s1 ls1 i t s2 t2 Hi Hst]. cbn [fst snd] in *.
      assert (Ht : t ∈ ls1) by (eapply elem_of_list_lookup_2; exact Hi).
      assert (Hlt : (i < length ls1)%nat) by (eapply lookup_lt_Some; exact Hi).
      split; [exact (step_inv (vctl cap) cap vm (fun _ => True) (vctl_ok cap) _ _ _ _ _ _ _ I Hi Hst)|].
      assert (Hin2 : t2 ∈ <[i := t2]> ls1) by (eapply elem_of_list_lookup_2, list_lookup_insert; exact Hlt).
      assert (Hprog : q_prog t2 = q_prog t \/ q_prog t2 = tail (q_prog t)).
      { unfold qstep in Hst. destruct (q_prog t) as [|op rest] eqn:Ep; [discriminate|].
        repeat match type of Hst with context [match ?x with _ => _ end] => destruct x end; try discriminate; injection Hst as <- <-; cbn; rewrite ?Ep; auto. }
      split.
      + intros t0 Ht0. apply elem_of_list_lookup in Ht0 as [j Hj]. destruct (decide (i = j)) as [->|Hij].
        * rewrite list_lookup_insert in Hj by exact Hlt. injection Hj as <-. intros op Hop. apply (Hv t Ht). destruct Hprog as [E|E]; rewrite E in Hop; [exact Hop|].
          destruct (q_prog t); [exact Hop|right; exact Hop].
        * rewrite list_lookup_insert_ne in Hj by exact Hij. apply Hv. eapply elem_of_list_lookup_2; exact Hj.
      + intros Hno. destruct (bal_step _ _ _ _ _ (i_tok _ _ _ _ _ _ I t Ht) (Hv t Ht) Hst (Hno t2 Hin2)) as (Hno1 & Hd & _).
        rewrite (sumZ_insert _ _ _ _ _ Hi). assert (Hn : no_oob ls1).
        { intros t0 Ht0. apply elem_of_list_lookup in Ht0 as [j Hj]. destruct (decide (i = j)) as [->|Hij]; [rewrite Hi in Hj; injection Hj as <-; exact Hno1|].
          apply Hno. eapply elem_of_list_lookup_2. rewrite list_lookup_insert_ne by exact Hij. exact Hj. }
        specialize (Hb Hn). lia.
    - cbn. split; [exact start_inv|]. split.
      + intros t Ht. apply elem_of_list_fmap in Ht as (p & -> & Hp). cbn. intros op Hop. eapply Hwf; eauto.
      + intros _. rewrite sumZ_zero; [lia|]. intros t Ht. apply elem_of_list_fmap in Ht as (p & -> & Hp). reflexivity.
  Qed.

  (** ** quiescent states *)
  Lemma length_stored (d : list (option T)) : Z.of_nat (length (stored d)) = sumZ (wd (fun _ => 1)) d.
  Proof. unfold stored. induction d as [|[x|] d IH]; [reflexivity| |]; cbn; unfold id in *; cbn in *; lia. Qed.
  Lemma sum_length {A} (f : qthread T -> list A) ls : sumZ (fun t => sumZ (fun _ => 1) (f t)) ls = Z.of_nat (length (ls ≫= f)).
  Proof.
    assert (E : forall x : list A, sumZ (fun _ => 1) x = Z.of_nat (length x)) by (induction x as [|a x IH]; [reflexivity|]; cbn; lia).
    induction ls as [|t ls IH]; [reflexivity|]. cbn. rewrite app_length, E, IH. unfold mbind. lia.
  Qed.

  Lemma sumZ_prefix (d : list (option T)) : forall n, (n <= length d)%nat -> (forall p, (p < length d)%nat -> live (lkd d p) = if (p <? n)%nat then 1 else 0) ->
    sumZ (wd (fun _ => 1)) d = Z.of_nat n.
  Proof.
    induction d as [|o d IH]; intros n Hn H; [cbn in *; lia|]. cbn [length] in *. cbn [sumZ].
    pose proof (H 0%nat ltac:(lia)) as H0. change (live o = if (0 <? n)%nat then 1 else 0) in H0.
    assert (Ho : wd (fun _ => 1) o = live o) by (destruct o; reflexivity). rewrite Ho, H0.
    destruct n as [|n].
    - rewrite (IH 0%nat); [reflexivity|lia|]. intros p Hp. apply (H (S p)). lia.
    - rewrite (IH n); [cbn; lia|lia|]. intros p Hp. apply (H (S p)). lia.
  Qed.

  Lemma vec_quiescent s ls : reach (qstep (vctl cap)) start (s, ls) -> quiescent ls ->
    v_size (as_vec s) = Z.of_nat (length (stored (q_data s))) /\
    (forall p, (p < cap)%nat -> q_occ s !! p = Some (bool_decide (Z.of_nat p < v_size (as_vec s))) /\ q_locks s !! p = Some false /\
        exists d, q_data s !! p = Some d /\ (d <> None <-> Z.of_nat p < v_size (as_vec s))) /\
    bcount (q_occ s) = v_size (as_vec s) /\ bcount (q_locks s) = 0 /\ v_capacity (as_vec s) = Z.of_nat cap.
  Proof.
    intros R Hq. pose proof (reach_inv _ _ R) as I. destruct (at_rest cap vm (fun _ => True) _ _ _ I Hq) as [Hp _].
    destruct (i_len _ _ _ _ _ _ I) as (L1 & L2 & L3).
    assert (Hc : v_capacity (as_vec s) = Z.of_nat cap) by (unfold v_capacity; cbn; rewrite L2; reflexivity).
    assert (Hsz : 0 <= v_size (as_vec s) <= Z.of_nat cap).
    { unfold v_size. rewrite Hc. apply clamp_range. lia. }
    assert (Hm : forall p, (p < cap)%nat -> vm (q_c s) p = if Z.of_nat p <? v_size (as_vec s) then 1 else 0).
    { intros p Hlt. unfold vm, v_size, clamp_size. rewrite Hc. cbn [as_vec v_n].
      destruct (q_c s <? 0) eqn:E1; [rewrite !(proj2 (Z.ltb_ge (Z.of_nat p) _)) by lia; reflexivity|].
      destruct (Z.of_nat cap <? q_c s) eqn:E2; [rewrite !(proj2 (Z.ltb_lt (Z.of_nat p) _)) by lia; reflexivity|reflexivity]. }
    split; [|split; [|split; [|split; [|exact Hc]]]].
    - rewrite length_stored. rewrite (sumZ_prefix _ (Z.to_nat (v_size (as_vec s)))); [lia|lia|].
      intros p Hlt. rewrite L1 in Hlt. destruct (Hp p Hlt) as (_ & H2 & H3). rewrite H3, H2, Hm by exact Hlt.
      destruct (Z.ltb_spec (Z.of_nat p) (v_size (as_vec s))), (Nat.ltb_spec p (Z.to_nat (v_size (as_vec s)))); lia.
    - intros p Hlt. destruct (Hp p Hlt) as (H1 & H2 & H3). rewrite Hm in H2 by exact Hlt. split; [|split].
      + rewrite lk_Some by lia. f_equal. destruct (lk (q_occ s) p), (Z.ltb_spec (Z.of_nat p) (v_size (as_vec s))); cbn in H2; try lia; symmetry.
        * apply bool_decide_eq_true_2. assumption.
        * apply bool_decide_eq_false_2. lia.
      + rewrite lk_Some by lia. rewrite H1. reflexivity.
      + exists (lkd (q_data s) p). rewrite lkd_Some by lia. split; [reflexivity|]. rewrite H2 in H3.
        destruct (lkd (q_data s) p), (Z.ltb_spec (Z.of_nat p) (v_size (as_vec s))); cbn in H3; try lia; split; intros; try lia; try discriminate; congruence.
    - rewrite (count_true_prefix (q_occ s) (Z.to_nat (v_size (as_vec s)))); [lia|lia|].
      intros p Hlt. rewrite L2 in Hlt. destruct (Hp p Hlt) as (_ & H2 & _). rewrite Hm in H2 by exact Hlt. rewrite lk_Some by lia. f_equal.
      destruct (lk (q_occ s) p), (Z.ltb_spec (Z.of_nat p) (v_size (as_vec s))); cbn in H2; try lia; symmetry.
      + apply bool_decide_eq_true_2. lia.
      + apply bool_decide_eq_false_2. lia.
    - rewrite (count_true_prefix (q_locks s) 0); [reflexivity|lia|].
      intros p Hlt. rewrite L3 in Hlt. destruct (Hp p Hlt) as (H1 & _ & _). rewrite lk_Some by lia. rewrite H1. reflexivity.
  Qed.

  Lemma vec_valid_at_rest s ls : reach (qstep (vctl cap)) start (s, ls) -> quiescent ls -> no_oob ls ->
    v_size (as_vec s) = Z.of_nat (length l) + Z.of_nat (length (ls ≫= fun t => pushed_by (q_log t))) - Z.of_nat (length (ls ≫= fun t => popped_by (q_log t))) /\
    v_valid (as_vec s) = true.
  Proof.
    intros R Hq Hno. pose proof (reach_inv _ _ R) as I. destruct (vec_quiescent s ls R Hq) as (Hs & Hpt & Ho & Hk & Hc).
    destruct (at_rest cap vm (fun _ => True) _ _ _ I Hq) as [_ Hfl]. pose proof (bal_reach s ls R Hno) as Hb.
    pose proof (i_cons _ _ _ _ _ _ I (fun _ => 1)) as Hcons. rewrite <- !length_stored, stored_start in Hcons.
    assert (E1 : sumZ (wpush (fun _ => 1)) ls = Z.of_nat (length (ls ≫= fun t => pushed_by (q_log t)))).
    { rewrite <- sum_length. apply sumZ_ext. intros t Ht. unfold wpush. rewrite (proj1 (Hfl t Ht)), app_nil_r. reflexivity. }
    assert (E2 : sumZ (wpop (fun _ => 1)) ls = Z.of_nat (length (ls ≫= fun t => popped_by (q_log t)))).
    { rewrite <- sum_length. apply sumZ_ext. intros t Ht. unfold wpop. rewrite (proj2 (Hfl t Ht)), app_nil_r. reflexivity. }
    assert (E3 : sumZ bal ls = Z.of_nat (length (ls ≫= fun t => pushed_by (q_log t))) - Z.of_nat (length (ls ≫= fun t => popped_by (q_log t)))).
    { rewrite <- !sum_length. assert (E : forall A (x : list A), sumZ (fun _ => 1) x = Z.of_nat (length x)) by (induction x as [|a x IH]; [reflexivity|]; cbn; lia).
      rewrite (sumZ_ext bal (fun t => sumZ (fun _ => 1) (pushed_by (q_log t)) + (-1) * sumZ (fun _ => 1) (popped_by (q_log t)))).
      - rewrite sumZ_add. assert (E4 : forall f : qthread T -> Z, sumZ (fun t => -1 * f t) ls = - sumZ f ls).
        { intros f. clear. induction ls as [|t ls IH]; [reflexivity|]. cbn [sumZ]. rewrite IH. lia. }
        rewrite E4. lia.
      - intros t Ht. unfold bal, claimed. rewrite (Hq t Ht), !E. lia. }
    assert (Hsz : 0 <= v_size (as_vec s) <= Z.of_nat cap).
    { unfold v_size. rewrite Hc. apply clamp_range. lia. }
    split; [lia|]. unfold v_valid. change (v_occ (as_vec s)) with (q_occ s). change (v_locks (as_vec s)) with (q_locks s). change (v_n (as_vec s)) with (q_c s).
    rewrite Hc, Ho, Hk. destruct (Z.of_nat cap =? 0); [reflexivity|]. lia.
  Qed.
End vconc.

(** ** rejected calls *)
Lemma rejected_step {T C} (ctl : C -> qkind -> nat -> cres C) i s (t : qthread T) s' t' : qstep ctl i s t = Some (s', t') ->
  (q_log t' = q_log t ++ [Refused] -> (forall p, q_pc t <> QUnlock p (Some Refused)) -> s' = s) /\
  (q_log t' = q_log t ++ [OutOfBounds] -> (forall p, q_pc t <> QUnlock p (Some OutOfBounds)) ->
     q_data s' = q_data s /\ q_occ s' = q_occ s /\ q_locks s' = q_locks s).
Proof.
  intros E. assert (Hne : forall (x : qres T), q_log t = q_log t ++ [x] -> False).
  { intros x H. apply (f_equal length) in H. rewrite app_length in H. cbn in H. lia. }
  unfold qstep in E. destruct (q_prog t) as [|op rest]; [discriminate|].
  destruct (q_pc t) as [|n|p|p|p|p|p|p|p y|p r] eqn:Epc.
  all: repeat match type of E with context [match ?x with _ => _ end] => destruct x end; try discriminate; injection E as <- <-; cbn [goto finish q_log];
    (split; [intros H Hu|intros H Hu]; try (exfalso; eapply Hne; exact H); try (apply app_inv_head in H; discriminate H); auto).
  all: try (apply app_inv_head in H; injection H as ->; exfalso; eapply Hu; reflexivity).
Qed.

(** ** lane-serialised execution: the deadlock *)
Definition c23_wave (i : nat) : nat := (i / 2)%nat.
Definition c23_progs : list (list (qop nat)) := [[QPush KPushBack 10%nat]; [QPush KPushBack 11%nat]; [QPop KPopBack]; [QPop KPopBack]].
Definition c23_pc (q : nat) (k : nat) : qpc nat := match k with 0 => QTry q | 1 => QCheck q | _ => QUnlock q None end%nat.
Definition c23_state (a b : nat) : qshared nat Z * list (qthread nat) :=
  ({| q_c := 1; q_data := [Some 7%nat; None]; q_occ := [true; false]; q_locks := [negb (a =? 0)%nat; negb (b =? 0)%nat] |},
   [{| q_prog := [QPush KPushBack 10%nat]; q_pc := c23_pc 0 a; q_log := [] |};
    {| q_prog := [QPush KPushBack 11%nat]; q_pc := QTry 1; q_log := [] |};
    {| q_prog := [QPop KPopBack]; q_pc := c23_pc 1 b; q_log := [] |};
    {| q_prog := [QPop KPopBack]; q_pc := QTry 0; q_log := [] |}]).

Lemma c23_closed a b c : hip_step (vctl 2) c23_wave (c23_state a b) c -> exists a' b', c = c23_state a' b'.
Proof.
  unfold c23_state. intros H. inversion H as [s ls i t s' t' Hi Hready Hst]. subst. clear H.
  destruct i as [|[|[|[|i]]]]; cbn in Hi; try discriminate; injection Hi as <-.
  - destruct a as [|[|a]]; cbn in Hst; injection Hst as <- <-; cbn.
    + exists 1%nat, b. reflexivity.
    + exists 2%nat, b. reflexivity.
    + exists 0%nat, b. reflexivity.
  - exfalso. specialize (Hready _ eq_refl eq_refl 0%nat _ ltac:(lia) eq_refl eq_refl). destruct a as [|[|a]]; discriminate.
  - destruct b as [|[|b]]; cbn in Hst; injection Hst as <- <-; cbn.
    + exists a, 1%nat. reflexivity.
    + exists a, 2%nat. reflexivity.
    + exists a, 0%nat. reflexivity.
  - exfalso. specialize (Hready _ eq_refl eq_refl 2%nat _ ltac:(lia) eq_refl eq_refl). destruct b as [|[|b]]; discriminate.
Qed.
Lemma c23_forever a b c : rtc (hip_step (vctl 2) c23_wave) (c23_state a b) c -> exists a' b', c = c23_state a' b'.
Proof.
  intros H. remember (c23_state a b) as c0 eqn:E. revert a b E. induction H as [c|c1 c2 c3 H1 _ IH]; intros a b ->; [eauto|].
  destruct (c23_closed _ _ _ H1) as (a' & b' & ->). eapply IH. reflexivity.
Qed.

(** executing a schedule under lane serialisation (the gate is checked) *)
Definition lane_ready_b {T} (wave : nat -> nat) (ls : list (qthread T)) (i : nat) : bool :=
  match ls !! i with
  | Some t => negb (in_loop_body t) ||
      forallb (fun j => negb (wave j =? wave i)%nat || match ls !! j with Some tj => negb (in_loop_body tj) | None => true end) (seq 0 i)
  | None => true
  end.
Lemma lane_ready_b_ok {T} wave (ls : list (qthread T)) i : lane_ready_b wave ls i = true -> lane_ready wave ls i.
Proof.
  unfold lane_ready_b, lane_ready. intros H t Hi Hb j tj Hj Hw Htj. rewrite Hi, Hb in H. cbn in H.
  rewrite forallb_forall in H. specialize (H j ltac:(apply in_seq; lia)). rewrite Hw, Nat.eqb_refl, Htj in H. cbn in H.
  destruct (in_loop_body tj); [discriminate|reflexivity].
Qed.
Fixpoint hip_run {T C} (ctl : C -> qkind -> nat -> cres C) (wave : nat -> nat) (sched : list nat) (c : qshared T C * list (qthread T)) : option (qshared T C * list (qthread T)) :=
  match sched with
  | [] => Some c
  | i :: sched =>
    if lane_ready_b wave c.2 i then
      match c.2 !! i with
      | None => None
      | Some t => match qstep ctl i c.1 t with None => None | Some (s', t') => hip_run ctl wave sched (s', <[i := t']> c.2) end
      end
    else None
  end.
Lemma hip_run_ok {T C} (ctl : C -> qkind -> nat -> cres C) wave sched : forall (c c' : qshared T C * list (qthread T)),
  hip_run ctl wave sched c = Some c' -> rtc (hip_step ctl wave) c c'.
Proof.
  induction sched as [|i sched IH]; intros [s ls] c' H; cbn in H.
  - injection H as <-. apply rtc_refl.
  - destruct (lane_ready_b wave ls i) eqn:El; [|discriminate]. destruct (ls !! i) as [t|] eqn:Ei; [|discriminate].
    destruct (qstep ctl i s t) as [[s' t']|] eqn:E; [|discriminate].
    eapply rtc_l; [econstructor; [exact Ei|apply lane_ready_b_ok; exact El|exact E]|]. apply IH. exact H.
Qed.
Lemma c23_deadlock : rtc (hip_step (vctl 2) c23_wave) (vec_conc_start 2 [7%nat], q_start c23_progs) (c23_state 0 0).
Proof. apply (hip_run_ok _ _ [0;1;2;3; 0;1;2;3; 3;0;1;2]%nat). vm_compute. reflexivity. Qed.

(** ** the two vector models agree: a call that runs alone in the step machine does what the sequential function does *)
Definition same_vec {T} (s : qshared T Z) (v : vec T) : Prop :=
  q_c s = v_n v /\ q_data s = v_data v /\ q_occ s = v_occ v /\ q_locks s = v_locks v.

Lemma solo_run {T C} (ctl : C -> qkind -> nat -> cres C) i (ls : list (qthread T)) : forall a b, rtc (fun a b => qstep ctl i a.1 a.2 = Some b) a b ->
  ls !! i = Some a.2 -> reach (qstep ctl) (a.1, ls) (b.1, <[i := b.2]> ls).
Proof.
  intros a b H. revert ls. induction H as [a|a b c Hab _ IH]; intros ls Hi.
  - rewrite list_insert_id by exact Hi. apply rtc_refl.
  - destruct b as [sb tb]. assert (Hlt : (i < length ls)%nat) by (eapply lookup_lt_Some; exact Hi).
    specialize (IH (<[i := tb]> ls) (list_lookup_insert _ _ _ Hlt)). rewrite list_insert_insert in IH.
    eapply rtc_l; [|exact IH]. econstructor; eassumption.
Qed.

Lemma insert_same {A} (l : list A) p x y : l !! p = Some y -> <[p := y]> (<[p := x]> l) = l.
Proof. intros H. rewrite list_insert_insert. apply list_insert_id. exact H. Qed.

Lemma solo_push_back {T} cap (s : qshared T Z) x v' b i ls t rest : length (q_occ s) = cap -> - 2 ^ 31 <= q_c s < INT_MAX ->
  v_push_back (as_vec s) x = Ret (v', b) -> ls !! i = Some t -> q_prog t = QPush KPushBack x :: rest -> q_pc t = QIdle ->
  exists s' r, reach (qstep (vctl cap)) (s, ls) (s', <[i := finish t r]> ls) /\ same_vec s' v' /\ (b = true <-> r = Pushed x) /\ (b = false <-> r = Refused \/ r = OutOfBounds).
Proof.
  intros Hcap Hint E Hi Hp Hpc. unfold v_push_back, v_full in E.
  assert (Hc : v_capacity (as_vec s) = Z.of_nat cap) by (unfold v_capacity; cbn; rewrite Hcap; reflexivity).
  assert (Hst : forall b, rtc (fun a b => qstep (vctl cap) i a.1 a.2 = Some b) (s, t) b -> reach (qstep (vctl cap)) (s, ls) (b.1, <[i := b.2]> ls)).
  { intros b0 H. apply (solo_run (vctl cap) i ls (s, t) b0 H Hi). }
  assert (S1 : qstep (vctl cap) i s t = Some (s, goto t (QCtl 0))) by (unfold qstep; rewrite Hp, Hpc; reflexivity).
  unfold v_size in E. rewrite Hc in E. cbn [as_vec v_n] in E.
  destruct (clamp_size (Z.of_nat cap) (q_c s) =? Z.of_nat cap) eqn:Ef.
  - injection E as <- <-. exists s, Refused. split; [|split; [repeat split|split; [split; discriminate|split; auto]]].
    apply (Hst (s, finish t Refused)). eapply rtc_l; [exact S1|]. eapply rtc_l; [|apply rtc_refl]. unfold qstep. cbn. rewrite Hp. cbn. rewrite Ef. reflexivity.
  - set (t1 := goto t (QCtl 1)). assert (S2 : qstep (vctl cap) i s (goto t (QCtl 0)) = Some (s, t1)).
    { unfold qstep. cbn [goto q_prog q_pc]. rewrite Hp. cbn [kind_of vctl]. rewrite Ef. destruct s; reflexivity. }
    change (v_capacity (v_set_n (as_vec s) _)) with (v_capacity (as_vec s)) in E. rewrite Hc in E.
    assert (Hwrap : to_int32 (q_c s + 1) = q_c s + 1) by (apply to_int32_id; lia).
    destruct ((0 <=? q_c s) && (q_c s <? Z.of_nat cap)) eqn:Eb.
    + set (p := Z.to_nat (q_c s)) in *. cbn [v_set_n v_locks v_occ as_vec] in E.
      destruct (q_locks s !! p) as [[]|] eqn:El; try discriminate; destruct (q_occ s !! p) as [[]|] eqn:Eo; try discriminate. injection E as <- <-.
      set (s1 := with_c s (q_c s + 1)).
      exists (with_lock (with_occ (with_data (with_lock s1 p true) p (Some x)) p true) p false), (Pushed x).
      split; [|split; [|split; [split; auto|split; [discriminate|intros [X|X]; discriminate]]]].
      * apply (Hst (_, finish t (Pushed x))). eapply rtc_l; [exact S1|]. eapply rtc_l; [exact S2|].
        assert (St : forall pc, q_prog (goto t pc) = QPush KPushBack x :: rest) by (intros; exact Hp).
        eapply rtc_l with (y := (s1, goto t (QTry p))). { unfold qstep. unfold t1. cbn [fst snd q_pc goto q_prog]. rewrite Hp. cbn [kind_of vctl]. rewrite Eb. reflexivity. }
        eapply rtc_l with (y := (with_lock s1 p true, goto t (QCheck p))). { unfold qstep. cbn [fst snd q_pc goto q_prog]. rewrite Hp. unfold s1. cbn [with_c q_locks]. rewrite El. reflexivity. }
        eapply rtc_l with (y := (with_lock s1 p true, goto t (QConstruct p))). { unfold qstep. cbn [fst snd q_pc goto q_prog]. rewrite Hp. unfold s1. cbn [with_c with_lock q_occ]. rewrite Eo. reflexivity. }
        eapply rtc_l with (y := (with_data (with_lock s1 p true) p (Some x), goto t (QSet p))). { unfold qstep. cbn [fst snd q_pc goto q_prog]. rewrite Hp. reflexivity. }
        eapply rtc_l with (y := (with_occ (with_data (with_lock s1 p true) p (Some x)) p true, goto t (QUnlock p (Some (Pushed x))))). { unfold qstep. cbn [fst snd q_pc goto q_prog]. rewrite Hp. reflexivity. }
        eapply rtc_l; [|apply rtc_refl]. unfold qstep. cbn [fst snd q_pc goto q_prog]. rewrite Hp. reflexivity.
      * repeat split; cbn. { rewrite Hwrap. reflexivity. } apply insert_same. exact El.
    + injection E as <- <-. exists (with_c s (q_c s + 1)), OutOfBounds. split; [|split; [|split; [split; discriminate|split; auto]]].
      * apply (Hst (_, finish t OutOfBounds)). eapply rtc_l; [exact S1|]. eapply rtc_l; [exact S2|]. eapply rtc_l; [|apply rtc_refl].
        unfold qstep. unfold t1. cbn [fst snd q_pc goto q_prog]. rewrite Hp. cbn [kind_of vctl]. rewrite Eb. reflexivity.
      * repeat split; cbn. rewrite Hwrap. reflexivity.
Qed.

Lemma solo_pop_back {T} cap (s : qshared T Z) v' o i ls t rest : length (q_occ s) = cap -> - 2 ^ 31 < q_c s <= INT_MAX ->
  v_pop_back (as_vec s) = Ret (v', o) -> ls !! i = Some t -> q_prog t = QPop KPopBack :: rest -> q_pc t = QIdle ->
  exists s' r, reach (qstep (vctl cap)) (s, ls) (s', <[i := finish t r]> ls) /\ same_vec s' v' /\
    match o with Some y => r = Popped y | None => r = Refused \/ r = OutOfBounds end.
Proof.
  intros Hcap Hint E Hi Hp Hpc. unfold v_pop_back, v_empty in E.
  assert (Hc : v_capacity (v_log (as_vec s) EvInitCopy) = Z.of_nat cap) by (unfold v_capacity; cbn; rewrite Hcap; reflexivity).
  assert (Hst : forall b, rtc (fun a b => qstep (vctl cap) i a.1 a.2 = Some b) (s, t) b -> reach (qstep (vctl cap)) (s, ls) (b.1, <[i := b.2]> ls)).
  { intros b0 H. apply (solo_run (vctl cap) i ls (s, t) b0 H Hi). }
  assert (S1 : qstep (vctl cap) i s t = Some (s, goto t (QCtl 0))) by (unfold qstep; rewrite Hp, Hpc; reflexivity).
  unfold v_size in E. rewrite Hc in E. cbn [as_vec v_n v_log] in E.
  destruct (clamp_size (Z.of_nat cap) (q_c s) =? 0) eqn:Ef.
  - injection E as <- <-. exists s, Refused. split; [|split; [repeat split|auto]].
    apply (Hst (s, finish t Refused)). eapply rtc_l; [exact S1|]. eapply rtc_l; [|apply rtc_refl]. unfold qstep. cbn. rewrite Hp. cbn. rewrite Ef. reflexivity.
  - set (t1 := goto t (QCtl 1)). assert (S2 : qstep (vctl cap) i s (goto t (QCtl 0)) = Some (s, t1)).
    { unfold qstep. cbn [goto q_prog q_pc]. rewrite Hp. cbn [kind_of vctl]. rewrite Ef. destruct s; reflexivity. }
    match type of E with context [v_capacity (v_set_n ?a ?b)] => change (v_capacity (v_set_n a b)) with (v_capacity (v_log (as_vec s) EvInitCopy)) in E end. rewrite Hc in E.
    assert (Hwrap : to_int32 (q_c s - 1) = q_c s - 1) by (apply to_int32_id; lia). rewrite Hwrap in E.
    destruct ((0 <=? q_c s - 1) && (q_c s - 1 <? Z.of_nat cap)) eqn:Eb.
    + set (p := Z.to_nat (q_c s - 1)) in *. cbn [v_set_n v_locks v_occ as_vec v_log v_set_occ v_data] in E.
      destruct (q_locks s !! p) as [[]|] eqn:El; try discriminate; destruct (q_occ s !! p) as [[]|] eqn:Eo; try discriminate.
      destruct (q_data s !! p) as [[y|]|] eqn:Ed; try discriminate. injection E as <- <-.
      set (s1 := with_c s (q_c s - 1)).
      exists (with_lock (with_data (with_occ (with_lock s1 p true) p false) p None) p false), (Popped y).
      split; [|split; [|reflexivity]].
      * apply (Hst (_, finish t (Popped y))). eapply rtc_l; [exact S1|]. eapply rtc_l; [exact S2|].
        eapply rtc_l with (y := (s1, goto t (QTry p))). { unfold qstep. unfold t1. cbn [fst snd q_pc goto q_prog]. rewrite Hp. cbn [kind_of vctl]. rewrite Eb. reflexivity. }
        eapply rtc_l with (y := (with_lock s1 p true, goto t (QCheck p))). { unfold qstep. cbn [fst snd q_pc goto q_prog]. rewrite Hp. unfold s1. cbn [with_c q_locks]. rewrite El. reflexivity. }
        eapply rtc_l with (y := (with_lock s1 p true, goto t (QReset p))). { unfold qstep. cbn [fst snd q_pc goto q_prog]. rewrite Hp. unfold s1. cbn [with_c with_lock q_occ]. rewrite Eo. reflexivity. }
        eapply rtc_l with (y := (with_occ (with_lock s1 p true) p false, goto t (QRead p))). { unfold qstep. cbn [fst snd q_pc goto q_prog]. rewrite Hp. reflexivity. }
        eapply rtc_l with (y := (with_occ (with_lock s1 p true) p false, goto t (QDestroy p y))). { unfold qstep. cbn [fst snd q_pc goto q_prog]. rewrite Hp. unfold s1. cbn [with_c with_lock with_occ q_data]. rewrite Ed. reflexivity. }
        eapply rtc_l with (y := (with_data (with_occ (with_lock s1 p true) p false) p None, goto t (QUnlock p (Some (Popped y))))). { unfold qstep. cbn [fst snd q_pc goto q_prog]. rewrite Hp. reflexivity. }
        eapply rtc_l; [|apply rtc_refl]. unfold qstep. cbn [fst snd q_pc goto q_prog]. rewrite Hp. reflexivity.
      * repeat split; cbn. apply insert_same. exact El.
    + injection E as <- <-. exists (with_c s (q_c s - 1)), OutOfBounds. split; [|split; [repeat split|auto]].
      apply (Hst (_, finish t OutOfBounds)). eapply rtc_l; [exact S1|]. eapply rtc_l; [exact S2|]. eapply rtc_l; [|apply rtc_refl].
      unfold qstep. unfold t1. cbn [fst snd q_pc goto q_prog]. rewrite Hp. cbn [kind_of vctl]. rewrite Eb. reflexivity.
Qed.
