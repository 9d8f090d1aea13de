From Verif Require Import Base Conc SlotModel SlotSpec.

(** total lookups *)
Definition lk (l : list bool) (s : nat) : bool := default false (l !! s).
Definition lkd {T} (l : list (option T)) (s : nat) : option T := default None (l !! s).
Definition live {T} (d : option T) : Z := match d with Some _ => 1 | None => 0 end.
Definition at_ (s p : nat) : Z := if decide (s = p) then 1 else 0.

Lemma lk_insert l p b s : (p < length l)%nat -> lk (<[p := b]> l) s = if decide (s = p) then b else lk l s.
Proof.
  intros H. unfold lk. destruct (decide (s = p)) as [->|Hne].
  - rewrite list_lookup_insert by exact H. reflexivity.
  - rewrite list_lookup_insert_ne by congruence. reflexivity.
Qed.
Lemma lkd_insert {T} (l : list (option T)) p b s : (p < length l)%nat -> lkd (<[p := b]> l) s = if decide (s = p) then b else lkd l s.
Proof.
  intros H. unfold lkd. destruct (decide (s = p)) as [->|Hne].
  - rewrite list_lookup_insert by exact H. reflexivity.
  - rewrite list_lookup_insert_ne by congruence. reflexivity.
Qed.
Lemma lk_Some l s : (s < length l)%nat -> l !! s = Some (lk l s).
Proof. intros H. destruct (lookup_lt_is_Some_2 l s H) as [b Hb]. unfold lk. rewrite Hb. reflexivity. Qed.
Lemma lkd_Some {T} (l : list (option T)) s : (s < length l)%nat -> l !! s = Some (lkd l s).
Proof. intros H. destruct (lookup_lt_is_Some_2 l s H) as [b Hb]. unfold lkd. rewrite Hb. reflexivity. Qed.

Section proofs.
  Context {T C : Type} (ctl : C -> qkind -> nat -> cres C) (cap : nat).
  (** net number of claims of slot s according to the counters *)
  Context (m : C -> nat -> Z) (cok : C -> Prop).
  Hypothesis Hctl : forall c k n, cok c -> (n <= 2)%nat ->
    match ctl c k n with
    | CGo c' n' => cok c' /\ (n < n' <= 2)%nat /\ forall s, (s < cap)%nat -> m c' s = m c s
    | CReject => True
    | COob c' => cok c' /\ forall s, (s < cap)%nat -> m c' s = m c s
    | CClaim c' p => cok c' /\ (p < cap)%nat /\
        forall s, (s < cap)%nat -> m c' s = m c s + (if is_push k then at_ s p else - at_ s p)
    end.

  Notation step := (qstep (T:=T) ctl).

  Definition pushing (t : qthread T) : bool := match q_prog t with QPush _ _ :: _ => true | _ => false end.

  (** thread-local shape *)
  Definition tok (t : qthread T) : Prop :=
    (forall op, op ∈ q_prog t -> op_wf op) /\
    match q_pc t with
    | QIdle => True
    | QCtl n => (n <= 2)%nat /\ q_prog t <> []
    | QTry p | QCheck p | QUnlock p None => (p < cap)%nat /\ q_prog t <> []
    | QConstruct p | QSet p => (p < cap)%nat /\ pushing t = true
    | QReset p | QRead p | QDestroy p _ => (p < cap)%nat /\ q_prog t <> [] /\ pushing t = false
    | QUnlock p (Some r) => (p < cap)%nat /\ q_prog t <> [] /\
        match r with
        | Pushed y => exists k rest, q_prog t = QPush k y :: rest
        | Popped _ => pushing t = false
        | _ => False
        end
    end.

  (** holds the lock of slot s *)
  Definition incs (s : nat) (t : qthread T) : Z :=
    match q_pc t with
    | QCheck p | QConstruct p | QSet p | QReset p | QRead p | QDestroy p _ | QUnlock p _ => at_ s p
    | _ => 0
    end.
  (** claimed slot s for a push / pop that has not yet set / reset its occupancy *)
  Definition pp (s : nat) (t : qthread T) : Z :=
    match q_pc t with
    | QTry p | QCheck p | QConstruct p | QSet p | QUnlock p None => if pushing t then at_ s p else 0
    | _ => 0
    end.
  Definition pq (s : nat) (t : qthread T) : Z :=
    match q_pc t with
    | QTry p | QCheck p | QReset p | QUnlock p None => if pushing t then 0 else at_ s p
    | _ => 0
    end.
  (** element of slot s is alive although the slot is not occupied *)
  Definition lv (s : nat) (t : qthread T) : Z :=
    match q_pc t with QSet p | QRead p | QDestroy p _ => at_ s p | _ => 0 end.

  Definition local_ok (s : qshared T C) (t : qthread T) : Prop :=
    match q_pc t with
    | QConstruct p | QSet p | QRead p => lk (q_occ s) p = false
    | QReset p => lk (q_occ s) p = true
    | QDestroy p y => lk (q_occ s) p = false /\ lkd (q_data s) p = Some y
    | _ => True
    end.

  Definition wd (w : T -> Z) (d : option T) : Z := match d with Some x => w x | None => 0 end.
  Definition wpush (w : T -> Z) (t : qthread T) : Z := sumZ w (pushed_by (q_log t) ++ push_in_flight t).
  Definition wpop (w : T -> Z) (t : qthread T) : Z := sumZ w (popped_by (q_log t) ++ pop_in_flight t).

  Local Arguments wpush : simpl never.
  Local Arguments pushed_by : simpl never.
  Local Arguments popped_by : simpl never.
  Local Arguments wpop : simpl never.

  Record inv (w0 : (T -> Z) -> Z) (s : qshared T C) (ls : list (qthread T)) : Prop := {
    i_len : length (q_data s) = cap /\ length (q_occ s) = cap /\ length (q_locks s) = cap;
    i_cok : cok (q_c s);
    i_tok : forall t, t ∈ ls -> tok t;
    i_lock : forall p, (p < cap)%nat -> Z.b2z (lk (q_locks s) p) = sumZ (incs p) ls;
    i_net : forall p, (p < cap)%nat -> Z.b2z (lk (q_occ s) p) + sumZ (pp p) ls - sumZ (pq p) ls = m (q_c s) p;
    i_live : forall p, (p < cap)%nat -> live (lkd (q_data s) p) = Z.b2z (lk (q_occ s) p) + sumZ (lv p) ls;
    i_loc : forall t, t ∈ ls -> local_ok s t;
    i_cons : forall w, w0 w + sumZ (wpush w) ls = sumZ (wpop w) ls + sumZ (wd w) (q_data s)
  }.

  Lemma at_nonneg s p : 0 <= at_ s p.
  Proof. unfold at_. destruct (decide _); lia. Qed.
  Lemma at_same p : at_ p p = 1.
  Proof. unfold at_. rewrite decide_True by reflexivity. reflexivity. Qed.
  Lemma incs_nonneg s t : 0 <= incs s t.
  Proof. unfold incs. destruct (q_pc t); try lia; apply at_nonneg. Qed.
  Lemma lv_nonneg s t : 0 <= lv s t.
  Proof. unfold lv. destruct (q_pc t); try lia; apply at_nonneg. Qed.
  Lemma pp_nonneg s t : 0 <= pp s t.
  Proof. unfold pp. destruct (q_pc t) as [| | | | | | | | |? [|]]; destruct (pushing t); try lia; apply at_nonneg. Qed.
  Lemma pq_nonneg s t : 0 <= pq s t.
  Proof. unfold pq. destruct (q_pc t) as [| | | | | | | | |? [|]]; destruct (pushing t); try lia; apply at_nonneg. Qed.
  Lemma lv_le_incs s t : lv s t <= incs s t.
  Proof. unfold lv, incs. destruct (q_pc t); try lia; apply at_nonneg. Qed.

  (** at most one thread is inside the critical section of a slot *)
  Lemma excl w0 s ls i j ti tj p : inv w0 s ls -> (p < cap)%nat -> i <> j -> ls !! i = Some ti -> ls !! j = Some tj ->
    incs p ti + incs p tj <= 1.
  Proof.
    intros I Hp Hne Hi Hj. pose proof (i_lock _ _ _ I p Hp) as H.
    pose proof (sumZ_ge_two (incs p) ls i j ti tj (fun l _ => incs_nonneg p l) Hne Hi Hj) as H2.
    destruct (lk (q_locks s) p); cbn in H; lia.
  Qed.

  (** the effect of one step, componentwise *)
  Lemma inv_step w0 s ls i t s' t' : inv w0 s ls -> ls !! i = Some t ->
    (length (q_data s') = cap /\ length (q_occ s') = cap /\ length (q_locks s') = cap) -> cok (q_c s') -> tok t' ->
    (forall p, (p < cap)%nat -> Z.b2z (lk (q_locks s') p) - Z.b2z (lk (q_locks s) p) = incs p t' - incs p t) ->
    (forall p, (p < cap)%nat -> Z.b2z (lk (q_occ s') p) - Z.b2z (lk (q_occ s) p) + (pp p t' - pp p t) - (pq p t' - pq p t) = m (q_c s') p - m (q_c s) p) ->
    (forall p, (p < cap)%nat -> live (lkd (q_data s') p) - live (lkd (q_data s) p) = Z.b2z (lk (q_occ s') p) - Z.b2z (lk (q_occ s) p) + lv p t' - lv p t) ->
    local_ok s' t' ->
    (forall p, (p < cap)%nat -> incs p t = 0 -> lk (q_occ s') p = lk (q_occ s) p /\ lkd (q_data s') p = lkd (q_data s) p) ->
    (forall w, wpush w t' - wpush w t = wpop w t' - wpop w t + (sumZ (wd w) (q_data s') - sumZ (wd w) (q_data s))) ->
    inv w0 s' (<[i := t']> ls).
  Proof.
    intros I Hi Hlen Hcok Htok Hlock Hnet Hlive Hloc Hothers Hcons.
    assert (Hlt : (i < length ls)%nat) by (eapply lookup_lt_Some; exact Hi).
    assert (Hin : t ∈ ls) by (eapply elem_of_list_lookup_2; exact Hi).
    assert (Hcases : forall t0, t0 ∈ <[i := t']> ls -> t0 = t' \/ exists j, j <> i /\ ls !! j = Some t0).
    { intros t0 Ht0. apply elem_of_list_lookup in Ht0 as [j Hj]. destruct (decide (i = j)) as [->|Hne].
      - rewrite list_lookup_insert in Hj by exact Hlt. left. congruence.
      - rewrite list_lookup_insert_ne in Hj by exact Hne. right. exists j. auto. }
    split.
    - exact Hlen.
    - exact Hcok.
    - intros t0 Ht0. destruct (Hcases t0 Ht0) as [->|(j & _ & Hj)]; [exact Htok|]. eapply (i_tok _ _ _ I), elem_of_list_lookup_2; exact Hj.
    - intros p Hp. rewrite (sumZ_insert _ _ _ _ _ Hi). specialize (Hlock p Hp). pose proof (i_lock _ _ _ I p Hp). lia.
    - intros p Hp. rewrite !(sumZ_insert _ _ _ _ _ Hi). specialize (Hnet p Hp). pose proof (i_net _ _ _ I p Hp). lia.
    - intros p Hp. rewrite (sumZ_insert _ _ _ _ _ Hi). specialize (Hlive p Hp). pose proof (i_live _ _ _ I p Hp). lia.
    - intros t0 Ht0. destruct (Hcases t0 Ht0) as [->|(j & Hne & Hj)]; [exact Hloc|].
      assert (Ht0in : t0 ∈ ls) by (eapply elem_of_list_lookup_2; exact Hj).
      pose proof (i_loc _ _ _ I t0 Ht0in) as Hl0. pose proof (i_tok _ _ _ I t0 Ht0in) as [_ Hk0].
      unfold local_ok in *. destruct (q_pc t0) as [|n|p|p|p|p|p|p|p y|p r] eqn:Epc; try exact I0; try exact Logic.I;
        (assert (Hp : (p < cap)%nat) by (apply Hk0));
        (assert (Hz : incs p t = 0) by
           (pose proof (excl _ _ _ _ _ _ _ p I Hp (not_eq_sym Hne) Hi Hj) as Hex; unfold incs at 2 in Hex; rewrite Epc, at_same in Hex;
            pose proof (incs_nonneg p t); lia));
        destruct (Hothers p Hp Hz) as [E1 E2]; rewrite ?E1, ?E2; exact Hl0.
    - intros w. rewrite !(sumZ_insert _ _ _ _ _ Hi). specialize (Hcons w). pose proof (i_cons _ _ _ I w). lia.
  Qed.

  Lemma flight_idle t : q_pc t = QIdle -> push_in_flight (T:=T) t = [].
  Proof. intros H. unfold push_in_flight. rewrite H. destruct (q_prog t) as [|[] ?]; reflexivity. Qed.
  Lemma sumZ_data_insert w (l : list (option T)) p d : (p < length l)%nat ->
    sumZ (wd w) (<[p := d]> l) = sumZ (wd w) l - wd w (lkd l p) + wd w d.
  Proof. intros H. apply sumZ_insert. apply lkd_Some. exact H. Qed.

  Lemma pushed_snoc log r : pushed_by (T:=T) (log ++ [r]) = pushed_by log ++ pushed_by [r].
  Proof. unfold pushed_by. apply omap_app. Qed.
  Lemma popped_snoc log r : popped_by (T:=T) (log ++ [r]) = popped_by log ++ popped_by [r].
  Proof. unfold popped_by. apply omap_app. Qed.

  Lemma tok_tail t r : tok t -> tok (finish t r).
  Proof.
    intros [H _]. split; [|exact Logic.I]. intros op Hop. apply H. cbn in Hop. destruct (q_prog t); [exact Hop|]. right. exact Hop.
  Qed.

  (** wpush/wpop of a thread that just moved inside a call without transferring an element *)
  Lemma w_same w t pc : (forall l, wd w l = wd w l) -> push_in_flight (goto t pc) = push_in_flight t -> pop_in_flight (goto t pc) = pop_in_flight t ->
    wpush w (goto t pc) = wpush w t /\ wpop w (goto t pc) = wpop w t.
  Proof. intros _ H1 H2. unfold wpush, wpop. rewrite H1, H2. cbn. auto. Qed.

  Lemma flight_none t : (forall p, q_pc t <> QSet p) -> (forall p r, q_pc t <> QUnlock p (Some r)) ->
    push_in_flight (T:=T) t = [] /\ pop_in_flight t = [].
  Proof.
    intros H1 H2. unfold push_in_flight, pop_in_flight.
    destruct (q_prog t) as [|[k x|k] rest]; destruct (q_pc t) as [|n|p|p|p|p|p|p|p y|p [[]|]]; auto;
      first [exfalso; eapply H1; reflexivity | exfalso; eapply H2; reflexivity].
  Qed.

  Lemma w_quiet w t t' : push_in_flight t = [] -> pop_in_flight t = [] -> push_in_flight t' = [] -> pop_in_flight t' = [] ->
    pushed_by (q_log t') = pushed_by (q_log t) -> popped_by (q_log t') = popped_by (q_log t) ->
    wpush w t' = wpush w t /\ wpop w t' = wpop w t.
  Proof. intros A B C0 D E F. unfold wpush, wpop. rewrite A, B, C0, D, E, F. auto. Qed.

  Lemma step_inv w0 s ls i t s' t' : inv w0 s ls -> ls !! i = Some t -> step i s t = Some (s', t') -> inv w0 s' (<[i := t']> ls).
  Proof.
    intros I Hi Hst. assert (Hin : t ∈ ls) by (eapply elem_of_list_lookup_2; exact Hi).
    pose proof (i_tok _ _ _ I t Hin) as Ht. pose proof (i_loc _ _ _ I t Hin) as Hl. pose proof (i_len _ _ _ I) as (L1 & L2 & L3).
    pose proof Ht as [Hwf Hpc]. pose proof (i_cok _ _ _ I) as Hc.
    unfold qstep in Hst. destruct (q_prog t) as [|op rest] eqn:Epr; [discriminate|].
    assert (Hopwf : op_wf op) by (apply Ht; rewrite Epr; left).
    clear Hwf. pose proof (proj1 Ht) as Hwf.
    (* steps that leave data, occupancy and locks alone *)
    assert (Hquiet : forall c' t1, s' = with_c s c' -> t' = t1 -> cok c' -> tok t1 ->
       (forall p, incs p t1 = incs p t) ->
       (forall p, (p < cap)%nat -> (pp p t1 - pp p t) - (pq p t1 - pq p t) = m c' p - m (q_c s) p) ->
       (forall p, lv p t1 = lv p t) -> local_ok s t1 ->
       (forall w, wpush w t1 = wpush w t /\ wpop w t1 = wpop w t) -> inv w0 s' (<[i := t']> ls)).
    { intros c' t1 -> -> H1 H2 H3 H4 H5 H6 H7. eapply inv_step; eauto.
      - intros p Hp. cbn. rewrite H3. lia.
      - intros p Hp. cbn. specialize (H4 p Hp). lia.
      - intros p Hp. cbn. rewrite H5. lia.
      - intros w. cbn. destruct (H7 w) as [-> ->]. lia. }
    assert (Hself : s = with_c s (q_c s)) by (destruct s; reflexivity).
    destruct (q_pc t) as [|n|p|p|p|p|p|p|p y|p r] eqn:Epc.
    - (* enter *)
      injection Hst as <- <-. eapply (Hquiet (q_c s) _ Hself eq_refl Hc).
      + split; [exact Hwf|]. cbn. rewrite Epr. split; [lia|discriminate].
      + intros p. unfold incs. rewrite Epc. reflexivity.
      + intros p Hp. unfold pp, pq. rewrite Epc. cbn. lia.
      + intros p. unfold lv. rewrite Epc. reflexivity.
      + exact Logic.I.
      + intros w. apply w_quiet; try reflexivity; apply flight_none; cbn; intros; congruence.
    - (* counters *)
      destruct Hpc as [Hn _]. pose proof (Hctl (q_c s) (kind_of op) n Hc Hn) as Hk.
      destruct (ctl (q_c s) (kind_of op) n) as [c' n'| |c'|c' p] eqn:Ectl; injection Hst as <- <-.
      + destruct Hk as (Hc' & Hn' & Hm). eapply (Hquiet c' _ eq_refl eq_refl Hc').
        * split; [exact Hwf|]. cbn. rewrite Epr. split; [lia|discriminate].
        * intros p. unfold incs. rewrite Epc. reflexivity.
        * intros p Hp. unfold pp, pq. rewrite Epc. cbn. rewrite Hm by exact Hp. lia.
        * intros p. unfold lv. rewrite Epc. reflexivity.
        * exact Logic.I.
        * intros w. apply w_quiet; try reflexivity; apply flight_none; cbn; intros; congruence.
      + eapply (Hquiet (q_c s) _ Hself eq_refl Hc).
        * apply tok_tail. exact Ht.
        * intros p. unfold incs. rewrite Epc. reflexivity.
        * intros p Hp. unfold pp, pq. rewrite Epc. cbn. lia.
        * intros p. unfold lv. rewrite Epc. reflexivity.
        * exact Logic.I.
        * intros w. apply w_quiet; cbn [q_log finish]; rewrite ?pushed_snoc, ?popped_snoc, ?app_nil_r; try reflexivity; apply flight_none; cbn; intros; congruence.
      + destruct Hk as (Hc' & Hm). eapply (Hquiet c' _ eq_refl eq_refl Hc').
        * apply tok_tail. exact Ht.
        * intros p. unfold incs. rewrite Epc. reflexivity.
        * intros p Hp. unfold pp, pq. rewrite Epc. cbn. rewrite Hm by exact Hp. lia.
        * intros p. unfold lv. rewrite Epc. reflexivity.
        * exact Logic.I.
        * intros w. apply w_quiet; cbn [q_log finish]; rewrite ?pushed_snoc, ?popped_snoc, ?app_nil_r; try reflexivity; apply flight_none; cbn; intros; congruence.
      + destruct Hk as (Hc' & Hp & Hm). eapply (Hquiet c' _ eq_refl eq_refl Hc').
        * split; [exact Hwf|]. cbn. rewrite Epr. split; [lia|discriminate].
        * intros q. unfold incs. rewrite Epc. reflexivity.
        * intros q Hq. unfold pp, pq. rewrite Epc. cbn. rewrite Hm by exact Hq. unfold pushing. cbn. rewrite Epr.
          destruct op as [k x|k]; cbn in Hopwf |- *; rewrite Hopwf; lia.
        * intros q. unfold lv. rewrite Epc. reflexivity.
        * exact Logic.I.
        * intros w. apply w_quiet; try reflexivity; apply flight_none; cbn; intros; congruence.
    - (* try_lock *)
      destruct Hpc as [Hp Hne]. rewrite (lk_Some (q_locks s) p) in Hst by lia.
      destruct (lk (q_locks s) p) eqn:Elk.
      + injection Hst as <- <-. rewrite list_insert_id by exact Hi. exact I.
      + injection Hst as <- <-. eapply (inv_step _ _ _ _ _ _ _ I Hi); cbn.
        * rewrite insert_length. auto.
        * exact Hc.
        * split; [exact Hwf|]. cbn. rewrite Epr. split; [exact Hp|discriminate].
        * intros q Hq. rewrite lk_insert by lia. unfold incs. rewrite Epc. cbn. unfold at_. destruct (decide (q = p)) as [->|?]; [rewrite Elk; reflexivity|lia].
        * intros q Hq. unfold pp, pq, pushing. rewrite Epc. cbn. lia.
        * intros q Hq. unfold lv. rewrite Epc. cbn. lia.
        * exact Logic.I.
        * intros; auto.
        * intros w. match goal with |- context [wpush w ?x - wpush w t] => destruct (w_quiet w t x) as [-> ->] end; try reflexivity; try lia; apply flight_none; cbn; intros; congruence.
    - (* occupied? *)
      destruct Hpc as [Hp Hne]. rewrite (lk_Some (q_occ s) p) in Hst by lia.
      destruct op as [k x|k]; injection Hst as <- <-.
      + eapply (Hquiet (q_c s) _ Hself eq_refl Hc).
        * split; [destruct (lk (q_occ s) p); exact Hwf|]. destruct (lk (q_occ s) p); cbn; unfold pushing; cbn; rewrite Epr; split; auto; discriminate.
        * intros q. unfold incs. rewrite Epc. destruct (lk (q_occ s) p); reflexivity.
        * intros q Hq. unfold pp, pq, pushing. rewrite Epc. cbn. rewrite Epr. destruct (lk (q_occ s) p); lia.
        * intros q. unfold lv. rewrite Epc. destruct (lk (q_occ s) p); reflexivity.
        * unfold local_ok. destruct (lk (q_occ s) p) eqn:El; cbn; [exact Logic.I|exact El].
        * intros w. apply w_quiet; try reflexivity; apply flight_none; cbn; try (intros; congruence);
            destruct (lk (q_occ s) p); intros; congruence.
      + eapply (Hquiet (q_c s) _ Hself eq_refl Hc).
        * split; [destruct (lk (q_occ s) p); exact Hwf|]. destruct (lk (q_occ s) p); cbn; unfold pushing; cbn; rewrite Epr; repeat split; auto; discriminate.
        * intros q. unfold incs. rewrite Epc. destruct (lk (q_occ s) p); reflexivity.
        * intros q Hq. unfold pp, pq, pushing. rewrite Epc. cbn. rewrite Epr. destruct (lk (q_occ s) p); lia.
        * intros q. unfold lv. rewrite Epc. destruct (lk (q_occ s) p); reflexivity.
        * unfold local_ok. destruct (lk (q_occ s) p) eqn:El; cbn; [exact El|exact Logic.I].
        * intros w. apply w_quiet; try reflexivity; apply flight_none; cbn; try (intros; congruence);
            destruct (lk (q_occ s) p); intros; congruence.
    - (* construct *)
      destruct Hpc as [Hp Hpush]. destruct op as [k x|k]; [|unfold pushing in Hpush; rewrite Epr in Hpush; discriminate].
      unfold local_ok in Hl. rewrite Epc in Hl.
      assert (Hdead : lkd (q_data s) p = None).
      { pose proof (i_live _ _ _ I p Hp) as HL. rewrite Hl in HL. cbn in HL.
        assert (Hsum : sumZ (lv p) ls = 0).
        { assert (Hmem : forall t0, t0 ∈ ls -> lv p t0 = 0).
          { intros t0 Ht0. apply elem_of_list_lookup in Ht0 as [j Hj]. destruct (decide (i = j)) as [<-|Hij].
            - rewrite Hi in Hj. injection Hj as <-. unfold lv. rewrite Epc. reflexivity.
            - pose proof (excl _ _ _ _ _ _ _ p I Hp Hij Hi Hj) as Hex. unfold incs at 1 in Hex. rewrite Epc, at_same in Hex.
              pose proof (lv_le_incs p t0). pose proof (lv_nonneg p t0). lia. }
          apply sumZ_zero. exact Hmem. }
        rewrite Hsum in HL. destruct (lkd (q_data s) p); [cbn in HL; lia|reflexivity]. }
      injection Hst as <- <-. eapply (inv_step _ _ _ _ _ _ _ I Hi); cbn.
      + rewrite insert_length. auto.
      + exact Hc.
      + split; [exact Hwf|]. cbn. unfold pushing. cbn. rewrite Epr. auto.
      + intros q Hq. unfold incs. rewrite Epc. cbn. lia.
      + intros q Hq. unfold pp, pq, pushing. rewrite Epc. cbn. lia.
      + intros q Hq. rewrite lkd_insert by lia. unfold lv. rewrite Epc. cbn. unfold at_. destruct (decide (q = p)) as [->|?]; [rewrite Hdead; cbn; lia|lia].
      + exact Hl.
      + intros q Hq Hz. split; [reflexivity|]. rewrite lkd_insert by lia. unfold incs in Hz. rewrite Epc in Hz. unfold at_ in Hz. destruct (decide (q = p)); [lia|reflexivity].
      + intros w. rewrite sumZ_data_insert by lia. rewrite Hdead. cbn. unfold wpush, wpop, push_in_flight, pop_in_flight. cbn. rewrite Epc, Epr. rewrite !app_nil_r, sumZ_app. cbn. lia.
    - (* set *)
      destruct Hpc as [Hp Hpush]. destruct op as [k x|k]; [|unfold pushing in Hpush; rewrite Epr in Hpush; discriminate].
      unfold local_ok in Hl. rewrite Epc in Hl.
      injection Hst as <- <-. eapply (inv_step _ _ _ _ _ _ _ I Hi); cbn.
      + rewrite insert_length. auto.
      + exact Hc.
      + split; [exact Hwf|]. cbn. rewrite Epr. split; [exact Hp|]. split; [discriminate|]. eauto.
      + intros q Hq. unfold incs. rewrite Epc. cbn. lia.
      + intros q Hq. rewrite lk_insert by lia. unfold pp, pq, pushing. rewrite Epc. cbn. rewrite Epr. unfold at_. destruct (decide (q = p)) as [->|?]; [rewrite Hl; cbn; lia|lia].
      + intros q Hq. rewrite lk_insert by lia. unfold lv. rewrite Epc. cbn. unfold at_. destruct (decide (q = p)) as [->|?]; [rewrite Hl; cbn; lia|lia].
      + exact Logic.I.
      + intros q Hq Hz. split; [|reflexivity]. rewrite lk_insert by lia. unfold incs in Hz. rewrite Epc in Hz. unfold at_ in Hz. destruct (decide (q = p)); [lia|reflexivity].
      + intros w. unfold wpush, wpop, push_in_flight, pop_in_flight. cbn. rewrite Epc, Epr. lia.
    - (* reset *)
      destruct Hpc as (Hp & _ & Hpush). unfold local_ok in Hl. rewrite Epc in Hl.
      injection Hst as <- <-. eapply (inv_step _ _ _ _ _ _ _ I Hi); cbn.
      + rewrite insert_length. auto.
      + exact Hc.
      + split; [exact Hwf|]. cbn. rewrite Epr. split; [exact Hp|]. split; [discriminate|]. unfold pushing in *. cbn. exact Hpush.
      + intros q Hq. unfold incs. rewrite Epc. cbn. lia.
      + intros q Hq. rewrite lk_insert by lia. unfold pp, pq. rewrite Epc. cbn. rewrite Hpush. unfold at_. destruct (decide (q = p)) as [->|?]; [rewrite Hl; cbn; lia|lia].
      + intros q Hq. rewrite lk_insert by lia. unfold lv. rewrite Epc. cbn. unfold at_. destruct (decide (q = p)) as [->|?]; [rewrite Hl; cbn; lia|lia].
      + unfold local_ok. cbn. rewrite lk_insert, decide_True by (lia || reflexivity). reflexivity.
      + intros q Hq Hz. split; [|reflexivity]. rewrite lk_insert by lia. unfold incs in Hz. rewrite Epc in Hz. unfold at_ in Hz. destruct (decide (q = p)); [lia|reflexivity].
      + intros w. match goal with |- context [wpush w ?x - wpush w t] => destruct (w_quiet w t x) as [-> ->] end; try reflexivity; try lia; apply flight_none; cbn; intros; congruence.
    - (* read *)
      destruct Hpc as (Hp & _ & Hpush). unfold local_ok in Hl. rewrite Epc in Hl. rewrite (lkd_Some (q_data s) p) in Hst by lia.
      destruct (lkd (q_data s) p) as [y|] eqn:Ed; [|discriminate]. injection Hst as <- <-.
      eapply (Hquiet (q_c s) _ Hself eq_refl Hc).
      + split; [exact Hwf|]. cbn. rewrite Epr. split; [exact Hp|]. split; [discriminate|]. unfold pushing in *. cbn. exact Hpush.
      + intros q. unfold incs. rewrite Epc. reflexivity.
      + intros q Hq. unfold pp, pq. rewrite Epc. cbn. lia.
      + intros q. unfold lv. rewrite Epc. reflexivity.
      + unfold local_ok. cbn. auto.
      + intros w. apply w_quiet; try reflexivity; apply flight_none; cbn; intros; congruence.
    - (* destroy *)
      destruct Hpc as (Hp & _ & Hpush). unfold local_ok in Hl. rewrite Epc in Hl. destruct Hl as [Hl Hd].
      injection Hst as <- <-. eapply (inv_step _ _ _ _ _ _ _ I Hi); cbn.
      + rewrite insert_length. auto.
      + exact Hc.
      + split; [exact Hwf|]. cbn. rewrite Epr. split; [exact Hp|]. split; [discriminate|]. unfold pushing in *. cbn. exact Hpush.
      + intros q Hq. unfold incs. rewrite Epc. cbn. lia.
      + intros q Hq. unfold pp, pq. rewrite Epc. cbn. lia.
      + intros q Hq. rewrite lkd_insert by lia. unfold lv. rewrite Epc. cbn. unfold at_. destruct (decide (q = p)) as [->|?]; [rewrite Hd; cbn; lia|lia].
      + exact Logic.I.
      + intros q Hq Hz. split; [reflexivity|]. rewrite lkd_insert by lia. unfold incs in Hz. rewrite Epc in Hz. unfold at_ in Hz. destruct (decide (q = p)); [lia|reflexivity].
      + intros w. rewrite sumZ_data_insert by lia. rewrite Hd. cbn. unfold wpush, wpop, push_in_flight, pop_in_flight. cbn. rewrite Epc, Epr. rewrite !sumZ_app. cbn. destruct op; cbn; lia.
    - (* unlock *)
      assert (Hp : (p < cap)%nat) by (destruct r; apply Hpc). 
      destruct r as [r|].
      + destruct Hpc as (_ & _ & Hr). injection Hst as <- <-.
        eapply (inv_step _ _ _ _ _ _ _ I Hi); cbn.
        * rewrite insert_length. auto.
        * exact Hc.
        * apply tok_tail. exact Ht.
        * intros q Hq. rewrite lk_insert by lia. unfold incs. rewrite Epc. cbn. unfold at_. destruct (decide (q = p)) as [->|?]; [|lia].
          assert (Hlk : lk (q_locks s) p = true).
          { pose proof (i_lock _ _ _ I p Hp) as HL. pose proof (sumZ_ge_elem (incs p) ls i t (fun l _ => incs_nonneg p l) Hi) as Hge.
            unfold incs at 1 in Hge. rewrite Epc, at_same in Hge. destruct (lk (q_locks s) p); [reflexivity|cbn in HL; lia]. }
          rewrite Hlk. reflexivity.
        * intros q Hq. unfold pp, pq. rewrite Epc. cbn. lia.
        * intros q Hq. unfold lv. rewrite Epc. cbn. lia.
        * exact Logic.I.
        * intros; auto.
        * intros w. unfold wpush, wpop. rewrite (flight_idle (finish t r)) by reflexivity.
          unfold push_in_flight, pop_in_flight. cbn [q_pc finish q_log]. rewrite Epc, Epr. rewrite pushed_snoc, popped_snoc, !app_nil_r.
          destruct r as [x|y| |]; try contradiction.
          -- destruct Hr as (k & rest' & E). injection E as -> ->.
             change (pushed_by [Pushed x]) with [x]. change (popped_by [Pushed x]) with (@nil T).
             rewrite ?app_nil_r, ?sumZ_app. lia.
          -- change (pushed_by [Popped y]) with (@nil T). change (popped_by [Popped y]) with [y].
             destruct op; rewrite ?app_nil_r, ?sumZ_app; lia.
      + destruct Hpc as (_ & _). injection Hst as <- <-.
        eapply (inv_step _ _ _ _ _ _ _ I Hi); cbn.
        * rewrite insert_length. auto.
        * exact Hc.
        * split; [exact Hwf|]. cbn. rewrite Epr. split; [exact Hp|discriminate].
        * intros q Hq. rewrite lk_insert by lia. unfold incs. rewrite Epc. cbn. unfold at_. destruct (decide (q = p)) as [->|?]; [|lia].
          assert (Hlk : lk (q_locks s) p = true).
          { pose proof (i_lock _ _ _ I p Hp) as HL. pose proof (sumZ_ge_elem (incs p) ls i t (fun l _ => incs_nonneg p l) Hi) as Hge.
            unfold incs at 1 in Hge. rewrite Epc, at_same in Hge. destruct (lk (q_locks s) p); [reflexivity|cbn in HL; lia]. }
          rewrite Hlk. reflexivity.
        * intros q Hq. unfold pp, pq, pushing. rewrite Epc. cbn. lia.
        * intros q Hq. unfold lv. rewrite Epc. cbn. lia.
        * exact Logic.I.
        * intros; auto.
        * intros w. match goal with |- context [wpush w ?x - wpush w t] => destruct (w_quiet w t x) as [-> ->] end; try reflexivity; try lia; apply flight_none; cbn; intros; congruence.
  Qed.

  Lemma inv_reach w0 s ls s' ls' : inv w0 s ls -> reach step (s, ls) (s', ls') -> inv w0 s' ls'.
  Proof.
    intros I Hr. refine (invariant step (fun c => inv w0 c.1 c.2) _ (s, ls) (s', ls') I Hr).
    intros c c' Hc Hs. destruct Hs as [s1 ls1 i t s2 t2 Hi Hst]. cbn in *. eapply step_inv; eauto.
  Qed.

  (** ** safety consequences *)
  Lemma access_holds_lock t p : element_access (T:=T) t = Some p -> incs p t = 1.
  Proof.
    unfold element_access, incs. destruct (q_prog t); [discriminate|]. destruct (q_pc t); intros H; try discriminate; injection H as ->; apply at_same.
  Qed.
  Lemma access_bound t p : tok t -> element_access t = Some p -> (p < cap)%nat.
  Proof.
    intros [_ H]. unfold element_access. destruct (q_prog t); [discriminate|]. destruct (q_pc t); intros E; try discriminate; injection E as <-; apply H.
  Qed.

  Lemma no_race w0 s ls i j ti tj p : inv w0 s ls -> ls !! i = Some ti -> ls !! j = Some tj ->
    element_access ti = Some p -> element_access tj = Some p -> i = j.
  Proof.
    intros I Hi Hj Ai Aj. destruct (decide (i = j)) as [E|Hne]; [exact E|exfalso].
    assert (Hp : (p < cap)%nat) by (eapply access_bound; [eapply (i_tok _ _ _ I), elem_of_list_lookup_2; exact Hi|exact Ai]).
    pose proof (excl _ _ _ _ _ _ _ p I Hp Hne Hi Hj) as H. rewrite (access_holds_lock _ _ Ai), (access_holds_lock _ _ Aj) in H. lia.
  Qed.

  (** elements are constructed in dead slots, read and destroyed in live ones *)
  Lemma lifetime_at w0 s ls i t : inv w0 s ls -> ls !! i = Some t -> q_prog t <> [] ->
    match q_pc t with
    | QConstruct p => lkd (q_data s) p = None
    | QRead p => exists y, lkd (q_data s) p = Some y
    | QDestroy p y => lkd (q_data s) p = Some y
    | _ => True
    end.
  Proof.
    intros I Hi Hne. assert (Hin : t ∈ ls) by (eapply elem_of_list_lookup_2; exact Hi).
    pose proof (i_tok _ _ _ I t Hin) as [_ Hpc]. pose proof (i_loc _ _ _ I t Hin) as Hl. unfold local_ok in Hl.
    destruct (q_pc t) as [|n|p|p|p|p|p|p|p y|p r] eqn:Epc; auto.
    - destruct Hpc as [Hp _]. pose proof (i_live _ _ _ I p Hp) as HL. rewrite Hl in HL. cbn in HL.
      assert (Hsum : sumZ (lv p) ls = 0).
      { apply sumZ_zero. intros t0 Ht0. apply elem_of_list_lookup in Ht0 as [j Hj]. destruct (decide (i = j)) as [<-|Hij].
        - rewrite Hi in Hj. injection Hj as <-. unfold lv. rewrite Epc. reflexivity.
        - pose proof (excl _ _ _ _ _ _ _ p I Hp Hij Hi Hj) as Hex. unfold incs at 1 in Hex. rewrite Epc, at_same in Hex.
          pose proof (lv_le_incs p t0). pose proof (lv_nonneg p t0). lia. }
      rewrite Hsum in HL. destruct (lkd (q_data s) p); [cbn in HL; lia|reflexivity].
    - destruct Hpc as [Hp _]. pose proof (i_live _ _ _ I p Hp) as HL. rewrite Hl in HL. cbn in HL.
      pose proof (sumZ_ge_elem (lv p) ls i t (fun l _ => lv_nonneg p l) Hi) as Hge. unfold lv at 1 in Hge. rewrite Epc, at_same in Hge.
      destruct (lkd (q_data s) p) as [y|]; [eauto|cbn in HL; lia].
    - apply Hl.
  Qed.

  (** no step is ever stuck *)
  Lemma not_stuck w0 s ls i t : inv w0 s ls -> ls !! i = Some t -> q_prog t <> [] -> exists s' t', step i s t = Some (s', t').
  Proof.
    intros I Hi Hne. assert (Hin : t ∈ ls) by (eapply elem_of_list_lookup_2; exact Hi).
    pose proof (i_tok _ _ _ I t Hin) as [_ Hpc]. pose proof (i_len _ _ _ I) as (L1 & L2 & L3).
    pose proof (lifetime_at _ _ _ _ _ I Hi Hne) as HLf.
    unfold qstep. destruct (q_prog t) as [|op rest] eqn:Epr; [congruence|].
    assert (Hps : pushing t = match op with QPush _ _ => true | _ => false end) by (unfold pushing; rewrite Epr; destruct op; reflexivity).
    destruct (q_pc t) as [|n|p|p|p|p|p|p|p y|p r] eqn:Epc.
    - eauto.
    - destruct (ctl _ _ _); eauto.
    - destruct Hpc as [Hp _]. rewrite (lk_Some (q_locks s) p) by lia. destruct (lk _ _); eauto.
    - destruct Hpc as [Hp _]. rewrite (lk_Some (q_occ s) p) by lia. destruct op; eauto.
    - destruct Hpc as [Hp Hx]. destruct op; [eauto|congruence].
    - destruct Hpc as [Hp Hx]. destruct op; [eauto|congruence].
    - eauto.
    - destruct Hpc as [Hp Hx]. destruct HLf as [y Hy]. rewrite (lkd_Some (q_data s) p) by lia. rewrite Hy. eauto.
    - eauto.
    - destruct r; eauto.
  Qed.

  (** ** running one thread alone *)
  Definition sstep (i : nat) (a b : qshared T C * qthread T) : Prop := step i a.1 a.2 = Some b.

  Lemma solo_reach w0 i : forall a b, rtc (sstep i) a b -> forall ls, ls !! i = Some a.2 -> inv w0 a.1 ls ->
    reach step (a.1, ls) (b.1, <[i := b.2]> ls) /\ inv w0 b.1 (<[i := b.2]> ls).
  Proof.
    induction 1 as [a|a b c Hab _ IH]; intros ls Hi I.
    - rewrite list_insert_id by exact Hi. split; [apply rtc_refl|exact I].
    - unfold sstep in Hab. destruct b as [sb tb].
      assert (Hlt : (i < length ls)%nat) by (eapply lookup_lt_Some; exact Hi).
      destruct (IH (<[i := tb]> ls)) as [H1 H2].
      + apply list_lookup_insert. exact Hlt.
      + eapply step_inv; eauto.
      + cbn [fst snd] in *. rewrite list_insert_insert in H1, H2. split; [|exact H2].
        eapply rtc_l; [|exact H1]. econstructor; eassumption.
  Qed.

  Definition csp (pc : qpc T) : option nat :=
    match pc with
    | QCheck p | QConstruct p | QSet p | QReset p | QRead p | QDestroy p _ | QUnlock p _ => Some p
    | _ => None
    end.
  Definition rank (pc : qpc T) : nat :=
    match pc with QCheck _ => 5 | QConstruct _ | QReset _ => 4 | QSet _ | QRead _ => 3 | QDestroy _ _ => 2 | QUnlock _ _ => 1 | _ => 0 end%nat.
  (** will leave the critical section with the call completed *)
  Definition good (pc : qpc T) : bool :=
    match pc with QConstruct _ | QSet _ | QReset _ | QRead _ | QDestroy _ _ | QUnlock _ (Some _) => true | _ => false end.
  Definition claimed (t : qthread T) : bool :=
    match q_pc t with QIdle | QCtl _ => false | _ => true end.
  Definition success (r : qres T) : Prop := (exists x, r = Pushed x) \/ (exists y, r = Popped y).

  Lemma csp_incs t p : csp (q_pc t) = Some p <-> incs p t = 1.
  Proof.
    unfold csp, incs, at_. destruct (q_pc t); try (split; [discriminate|lia]);
      (split; [intros H; injection H as ->; rewrite decide_True by reflexivity; reflexivity
              |destruct (decide _) as [->|?]; [reflexivity|lia]]).
  Qed.
  Lemma incs_pos t p : 0 < incs p t -> csp (q_pc t) = Some p.
  Proof. intros H. apply csp_incs. unfold incs in *. destruct (q_pc t); try lia; unfold at_ in *; destruct (decide _); lia. Qed.

  Lemma cs_step w0 s ls i t p : inv w0 s ls -> ls !! i = Some t -> csp (q_pc t) = Some p -> (1 < rank (q_pc t))%nat ->
    exists s' t', step i s t = Some (s', t') /\ csp (q_pc t') = Some p /\ (rank (q_pc t') < rank (q_pc t))%nat /\ q_c s' = q_c s /\
      q_prog t' = q_prog t /\ q_log t' = q_log t /\ (good (q_pc t) = true -> good (q_pc t') = true) /\
      (q_pc t = QCheck p -> lk (q_occ s) p = negb (pushing t) -> good (q_pc t') = true).
  Proof.
    intros I Hi Hcs Hrk. assert (Hin : t ∈ ls) by (eapply elem_of_list_lookup_2; exact Hi).
    pose proof (i_tok _ _ _ I t Hin) as [_ Hpc]. pose proof (i_len _ _ _ I) as (L1 & L2 & L3).
    assert (Hne : q_prog t <> []).
    { destruct (q_pc t) as [|n|q|q|q|q|q|q|q y|q r] eqn:Epc; cbn in Hrk; try lia; try apply Hpc; destruct Hpc as [_ H]; unfold pushing in H; intros E; rewrite E in H; discriminate. }
    destruct (not_stuck _ _ _ _ _ I Hi Hne) as (s' & t' & E). exists s', t'. split; [exact E|].
    unfold qstep in E. destruct (q_prog t) as [|op rest] eqn:Epr; [congruence|].
    assert (Hps : pushing t = match op with QPush _ _ => true | _ => false end) by (unfold pushing; rewrite Epr; destruct op; reflexivity).
    destruct (q_pc t) as [|n|q|q|q|q|q|q|q y|q r] eqn:Epc; cbn in Hcs, Hrk; try discriminate; try lia; injection Hcs as ->.
    - destruct Hpc as [Hp _]. rewrite (lk_Some (q_occ s) p) in E by lia.
      destruct op; injection E as <- <-; destruct (lk (q_occ s) p); cbn; repeat split; auto; try lia; intros; rewrite Hps in *; discriminate.
    - destruct op; [|discriminate]. injection E as <- <-. cbn. repeat split; auto; lia.
    - destruct op; [|discriminate]. injection E as <- <-. cbn. repeat split; auto; lia.
    - injection E as <- <-. cbn. repeat split; auto; lia.
    - destruct (q_data s !! p) as [[y|]|]; try discriminate. injection E as <- <-. cbn. repeat split; auto; lia.
    - injection E as <- <-. cbn. repeat split; auto; lia.
  Qed.

  (** from inside the critical section to just before the unlock *)
  Lemma cs_run w0 i p n : forall s ls t, (rank (q_pc t) <= n)%nat -> inv w0 s ls -> ls !! i = Some t -> csp (q_pc t) = Some p ->
    exists s' t' r, rtc (sstep i) (s, t) (s', t') /\ q_pc t' = QUnlock p r /\ q_c s' = q_c s /\ q_prog t' = q_prog t /\ q_log t' = q_log t /\
      (good (q_pc t) = true -> r <> None) /\ (q_pc t = QCheck p -> lk (q_occ s) p = negb (pushing t) -> r <> None).
  Proof.
    induction n as [|n IH]; intros s ls t Hn I Hi Hcs.
    - destruct (q_pc t); cbn in Hn, Hcs; try lia; discriminate.
    - destruct (decide (1 < rank (q_pc t))%nat) as [Hrk|Hrk].
      + destruct (cs_step _ _ _ _ _ _ I Hi Hcs Hrk) as (s1 & t1 & E & Hcs1 & Hrk1 & Hc1 & Hp1 & Hl1 & Hg1 & Hk1).
        assert (Hlt : (i < length ls)%nat) by (eapply lookup_lt_Some; exact Hi).
        destruct (IH s1 (<[i := t1]> ls) t1) as (s2 & t2 & r & Hr & Hpc2 & Hc2 & Hp2 & Hl2 & Hg2 & _);
          [lia|eapply step_inv; eauto|apply list_lookup_insert; exact Hlt|exact Hcs1|].
        exists s2, t2, r. split; [eapply rtc_l; [exact E|exact Hr]|]. split; [exact Hpc2|]. split; [congruence|]. split; [congruence|]. split; [congruence|].
        split; auto.
      + destruct (q_pc t) as [|k|q|q|q|q|q|q|q y|q r] eqn:Epc; cbn in Hrk, Hcs; try lia; try discriminate.
        injection Hcs as ->. exists s, t, r. split; [apply rtc_refl|]. split; [exact Epc|]. repeat split; auto.
        intros Hg. destruct r; [discriminate|cbn in Hg; discriminate].
  Qed.

  Lemma unlock_success w0 s ls t p r : inv w0 s ls -> t ∈ ls -> q_pc t = QUnlock p (Some r) -> success r.
  Proof.
    intros I Ht E. destruct (i_tok _ _ _ I t Ht) as [_ H]. rewrite E in H. destruct H as (_ & _ & H).
    destruct r; try contradiction; [left|right]; eauto.
  Qed.
  Lemma unlock_prog w0 s ls t p r : inv w0 s ls -> t ∈ ls -> q_pc t = QUnlock p r -> q_prog t <> [].
  Proof.
    intros I Ht E. destruct (i_tok _ _ _ I t Ht) as [_ H]. rewrite E in H. destruct r; apply H.
  Qed.

  (** leaving the critical section: back to try_lock, or call completed *)
  Lemma leave_cs w0 s ls i t p : inv w0 s ls -> ls !! i = Some t -> csp (q_pc t) = Some p ->
    exists s' t', reach step (s, ls) (s', <[i := t']> ls) /\ inv w0 s' (<[i := t']> ls) /\ q_c s' = q_c s /\
      ((q_pc t' = QTry p /\ q_prog t' = q_prog t /\ q_log t' = q_log t /\ good (q_pc t) = false /\
          (q_pc t = QCheck p -> lk (q_occ s) p <> negb (pushing t))) \/
       (exists r, success r /\ t' = finish t r)).
  Proof.
    intros I Hi Hcs.
    destruct (cs_run w0 i p (rank (q_pc t)) s ls t ltac:(lia) I Hi Hcs) as (s1 & t1 & r & Hr & Hpc1 & Hc1 & Hp1 & Hl1 & Hg1 & Hk1).
    destruct (solo_reach w0 i _ _ Hr ls Hi I) as [_ I1]. cbn [fst snd] in I1.
    assert (Hlt : (i < length ls)%nat) by (eapply lookup_lt_Some; exact Hi).
    assert (Hi1 : <[i := t1]> ls !! i = Some t1) by (apply list_lookup_insert; exact Hlt).
    assert (Hin1 : t1 ∈ <[i := t1]> ls) by (eapply elem_of_list_lookup_2; exact Hi1).
    pose proof (unlock_prog _ _ _ _ _ _ I1 Hin1 Hpc1) as Hne.
    destruct r as [r|].
    - exists (with_lock s1 p false), (finish t1 r).
      assert (Hr2 : rtc (sstep i) (s, t) (with_lock s1 p false, finish t1 r)).
      { eapply rtc_r; [exact Hr|]. unfold sstep. cbn. unfold qstep. destruct (q_prog t1); [congruence|]. rewrite Hpc1. reflexivity. }
      destruct (solo_reach w0 i _ _ Hr2 ls Hi I) as [R2 I2]. cbn [fst snd] in R2, I2.
      split; [exact R2|]. split; [exact I2|]. split; [exact Hc1|]. right. exists r.
      split; [exact (unlock_success _ _ _ _ _ _ I1 Hin1 Hpc1)|]. unfold finish. rewrite Hp1, Hl1. reflexivity.
    - exists (with_lock s1 p false), (goto t1 (QTry p)).
      assert (Hr2 : rtc (sstep i) (s, t) (with_lock s1 p false, goto t1 (QTry p))).
      { eapply rtc_r; [exact Hr|]. unfold sstep. cbn. unfold qstep. destruct (q_prog t1); [congruence|]. rewrite Hpc1. reflexivity. }
      destruct (solo_reach w0 i _ _ Hr2 ls Hi I) as [R2 I2]. cbn [fst snd] in R2, I2.
      split; [exact R2|]. split; [exact I2|]. split; [exact Hc1|]. left. cbn. split; [reflexivity|]. split; [exact Hp1|]. split; [exact Hl1|].
      split; [destruct (good (q_pc t)); [exfalso; apply Hg1; reflexivity|reflexivity]|].
      intros Hq Ho. apply (Hk1 Hq Ho). reflexivity.
  Qed.

  (** a thread waiting for a free slot lock whose slot is in the state it needs completes *)
  Lemma enter_and_finish w0 s ls i t p : inv w0 s ls -> ls !! i = Some t -> q_pc t = QTry p ->
    lk (q_locks s) p = false -> lk (q_occ s) p = negb (pushing t) ->
    exists s' r, reach step (s, ls) (s', <[i := finish t r]> ls) /\ inv w0 s' (<[i := finish t r]> ls) /\ q_c s' = q_c s /\ success r.
  Proof.
    intros I Hi Hpc Hlk Hocc. assert (Hin : t ∈ ls) by (eapply elem_of_list_lookup_2; exact Hi).
    pose proof (i_tok _ _ _ I t Hin) as [_ Ht]. rewrite Hpc in Ht. destruct Ht as [Hp Hne].
    pose proof (i_len _ _ _ I) as (L1 & L2 & L3).
    assert (Hlt : (i < length ls)%nat) by (eapply lookup_lt_Some; exact Hi).
    assert (E : step i s t = Some (with_lock s p true, goto t (QCheck p))).
    { unfold qstep. destruct (q_prog t); [congruence|]. rewrite Hpc. rewrite (lk_Some (q_locks s) p) by lia. rewrite Hlk. reflexivity. }
    pose proof (step_inv _ _ _ _ _ _ _ I Hi E) as I1.
    destruct (leave_cs w0 (with_lock s p true) (<[i := goto t (QCheck p)]> ls) i (goto t (QCheck p)) p I1) as (s2 & t2 & R2 & I2 & Hc2 & Hcase).
    { apply list_lookup_insert. exact Hlt. } { reflexivity. }
    rewrite list_insert_insert in R2, I2.
    destruct Hcase as [(_ & _ & _ & _ & Hbad)|(r & Hs & ->)].
    - exfalso. apply Hbad; [reflexivity|]. cbn. exact Hocc.
    - exists s2, r. change (finish (goto t (QCheck p)) r) with (finish t r) in *. split; [|auto].
      eapply rtc_l; [|exact R2]. econstructor; eassumption.
  Qed.

  (** ** completing all claimed calls *)
  Definition nclaimed (ls : list (qthread T)) : Z := sumZ (fun t => if claimed t then 1 else 0) ls.
  Definition drained (t t' : qthread T) : Prop :=
    (claimed t = false /\ t' = t) \/ (claimed t = true /\ exists r, success r /\ t' = finish t r).

  Lemma nclaimed_nonneg ls : 0 <= nclaimed ls.
  Proof. apply sumZ_nonneg. intros t _. destruct (claimed t); lia. Qed.

  Lemma claimed_pos t : tok t -> claimed t = true -> exists p, (p < cap)%nat /\ (csp (q_pc t) = Some p \/ q_pc t = QTry p).
  Proof.
    intros [_ H] Hc. unfold claimed in Hc. destruct (q_pc t) as [|n|p|p|p|p|p|p|p y|p [r|]]; try discriminate; exists p; (split; [apply H|]); auto.
  Qed.

  (** one claimed call can be completed *)
  Lemma complete_one w0 s ls : inv w0 s ls -> (forall p, (p < cap)%nat -> 0 <= m (q_c s) p <= 1) -> 0 < nclaimed ls ->
    exists i t r s', ls !! i = Some t /\ claimed t = true /\ success r /\
      (exists ls1, reach step (s, ls) (s', ls1) /\ inv w0 s' ls1 /\ q_c s' = q_c s /\
        length ls1 = length ls /\
        (forall j tj, ls !! j = Some tj -> exists tj', ls1 !! j = Some tj' /\
           if decide (j = i) then tj' = finish t r else q_prog tj' = q_prog tj /\ q_log tj' = q_log tj /\ claimed tj' = claimed tj /\ (claimed tj = false -> tj' = tj))).
  Proof.
    intros I Hm Hpos.
    (* second stage: the lock of p is free and somebody waits for slot p *)
    assert (Stage2 : forall s ls p, inv w0 s ls -> (forall p, (p < cap)%nat -> 0 <= m (q_c s) p <= 1) -> (p < cap)%nat -> lk (q_locks s) p = false ->
       (exists j t, ls !! j = Some t /\ q_pc t = QTry p) ->
       exists i t r s', ls !! i = Some t /\ claimed t = true /\ success r /\ reach step (s, ls) (s', <[i := finish t r]> ls) /\
         inv w0 s' (<[i := finish t r]> ls) /\ q_c s' = q_c s).
    { clear s ls I Hm Hpos. intros s ls p I Hm Hp Hlk (j & t & Hj & Hpc).
      pose proof (i_lock _ _ _ I p Hp) as HL. rewrite Hlk in HL. cbn in HL.
      assert (Hnocs : forall j t, ls !! j = Some t -> incs p t = 0).
      { intros j0 t0 Hj0. pose proof (sumZ_ge_elem (incs p) ls j0 t0 (fun l _ => incs_nonneg p l) Hj0). pose proof (incs_nonneg p t0). lia. }
      assert (Hpp : forall j t, ls !! j = Some t -> 0 < pp p t -> q_pc t = QTry p /\ pushing t = true).
      { intros j0 t0 Hj0 H. pose proof (Hnocs j0 t0 Hj0) as Hz. unfold pp, incs in *.
        destruct (q_pc t0) as [|n|q|q|q|q|q|q|q y|q [r|]]; try lia; destruct (pushing t0); try lia;
          unfold at_ in *; destruct (decide (p = q)) as [->|?]; try lia; auto. }
      assert (Hpq : forall j t, ls !! j = Some t -> 0 < pq p t -> q_pc t = QTry p /\ pushing t = false).
      { intros j0 t0 Hj0 H. pose proof (Hnocs j0 t0 Hj0) as Hz. unfold pq, incs in *.
        destruct (q_pc t0) as [|n|q|q|q|q|q|q|q y|q [r|]]; try lia; destruct (pushing t0); try lia;
          unfold at_ in *; destruct (decide (p = q)) as [->|?]; try lia; auto. }
      assert (Hone : 1 <= sumZ (pp p) ls + sumZ (pq p) ls).
      { pose proof (sumZ_ge_elem (pp p) ls j t (fun l _ => pp_nonneg p l) Hj) as H1.
        pose proof (sumZ_ge_elem (pq p) ls j t (fun l _ => pq_nonneg p l) Hj) as H2.
        pose proof (sumZ_nonneg (pp p) ls (fun l _ => pp_nonneg p l)). pose proof (sumZ_nonneg (pq p) ls (fun l _ => pq_nonneg p l)).
        unfold pp in H1 at 1. unfold pq in H2 at 1. rewrite Hpc, at_same in H1, H2. destruct (pushing t); lia. }
      pose proof (i_net _ _ _ I p Hp) as HN. specialize (Hm p Hp).
      assert (Hex : exists i t, ls !! i = Some t /\ q_pc t = QTry p /\ lk (q_occ s) p = negb (pushing t)).
      { destruct (lk (q_occ s) p) eqn:Eo; cbn in HN.
        - destruct (sumZ_pos_witness (pq p) ls (fun l _ => pq_nonneg p l)) as (i & t0 & Hi & H0); [lia|].
          destruct (Hpq _ _ Hi H0) as [H1 H2]. exists i, t0. rewrite H2. auto.
        - destruct (sumZ_pos_witness (pp p) ls (fun l _ => pp_nonneg p l)) as (i & t0 & Hi & H0); [lia|].
          destruct (Hpp _ _ Hi H0) as [H1 H2]. exists i, t0. rewrite H2. auto. }
      destruct Hex as (i & t0 & Hi & Hpc0 & Hocc0).
      destruct (enter_and_finish w0 s ls i t0 p I Hi Hpc0 Hlk Hocc0) as (s' & r & R & I' & Hc & Hs).
      exists i, t0, r, s'. split; [exact Hi|]. split; [unfold claimed; rewrite Hpc0; reflexivity|]. split; [exact Hs|]. split; [exact R|]. split; [exact I'|exact Hc]. }
    destruct (sumZ_pos_witness (fun t => if claimed t then 1 else 0) ls) as (j & t & Hj & Hcl).
    { intros l _. destruct (claimed l); lia. } { exact Hpos. }
    assert (Hcl' : claimed t = true) by (destruct (claimed t); [reflexivity|lia]). clear Hcl.
    destruct (claimed_pos t) as (p & Hp & Hcase); [eapply (i_tok _ _ _ I), elem_of_list_lookup_2; exact Hj|exact Hcl'|].
    assert (Hfin : forall i t r s', ls !! i = Some t -> reach step (s, ls) (s', <[i := finish t r]> ls) -> inv w0 s' (<[i := finish t r]> ls) -> q_c s' = q_c s ->
       exists ls1, reach step (s, ls) (s', ls1) /\ inv w0 s' ls1 /\ q_c s' = q_c s /\ length ls1 = length ls /\
        (forall j tj, ls !! j = Some tj -> exists tj', ls1 !! j = Some tj' /\
           if decide (j = i) then tj' = finish t r else q_prog tj' = q_prog tj /\ q_log tj' = q_log tj /\ claimed tj' = claimed tj /\ (claimed tj = false -> tj' = tj))).
    { intros i0 t0 r0 s0 Hi0 R0 I0 Hc0. exists (<[i0 := finish t0 r0]> ls). split; [exact R0|]. split; [exact I0|]. split; [exact Hc0|].
      split; [apply insert_length|]. intros k tk Hk. destruct (decide (k = i0)) as [->|Hne].
      - exists (finish t0 r0). split; [apply list_lookup_insert; eapply lookup_lt_Some; exact Hk|reflexivity].
      - exists tk. split; [rewrite list_lookup_insert_ne by congruence; exact Hk|auto]. }
    destruct (lk (q_locks s) p) eqn:Elk.
    - (* somebody is in the critical section of p *)
      pose proof (i_lock _ _ _ I p Hp) as HL. rewrite Elk in HL. cbn in HL.
      destruct (sumZ_pos_witness (incs p) ls (fun l _ => incs_nonneg p l)) as (i & t0 & Hi & H0); [lia|].
      apply incs_pos in H0.
      destruct (leave_cs w0 s ls i t0 p I Hi H0) as (s1 & t1 & R1 & I1 & Hc1 & Hcase1).
      assert (Hcl0 : claimed t0 = true) by (unfold claimed; destruct (q_pc t0); cbn in H0; try discriminate; reflexivity).
      destruct Hcase1 as [(Hpc1 & Hp1 & Hl1 & _ & _)|(r & Hs & ->)].
      + assert (Hlt : (i < length ls)%nat) by (eapply lookup_lt_Some; exact Hi).
        assert (Hlk1 : lk (q_locks s1) p = false).
        { pose proof (i_lock _ _ _ I1 p Hp) as HL1. rewrite (sumZ_insert _ _ _ _ _ Hi) in HL1.
          apply csp_incs in H0. assert (incs p t1 = 0) by (unfold incs; rewrite Hpc1; reflexivity). destruct (lk (q_locks s1) p); [cbn in HL1; lia|reflexivity]. }
        destruct (Stage2 s1 (<[i := t1]> ls) p I1) as (k & tk & r & s2 & Hk & Hclk & Hs & R2 & I2 & Hc2).
        { rewrite Hc1. exact Hm. } { exact Hp. } { exact Hlk1. }
        { exists i, t1. split; [apply list_lookup_insert; exact Hlt|exact Hpc1]. }
        destruct (decide (k = i)) as [->|Hne].
        * rewrite list_lookup_insert in Hk by exact Hlt. injection Hk as <-. rewrite list_insert_insert in R2, I2.
          exists i, t0, r, s2. split; [exact Hi|]. split; [exact Hcl0|]. split; [exact Hs|].
          replace (finish t1 r) with (finish t0 r) in R2, I2 by (unfold finish; rewrite Hp1, Hl1; reflexivity).
          apply Hfin; [exact Hi|etrans; eassumption|exact I2|congruence].
        * rewrite list_lookup_insert_ne in Hk by congruence.
          exists k, tk, r, s2. split; [exact Hk|]. split; [exact Hclk|]. split; [exact Hs|].
          exists (<[k := finish tk r]> (<[i := t1]> ls)). split; [etrans; eassumption|]. split; [exact I2|]. split; [congruence|].
          split; [rewrite !insert_length; reflexivity|].
          intros j1 tj Hj1. destruct (decide (j1 = k)) as [->|Hjk].
          -- exists (finish tk r). split; [apply list_lookup_insert; rewrite insert_length; eapply lookup_lt_Some; exact Hj1|reflexivity].
          -- rewrite list_lookup_insert_ne by congruence. destruct (decide (j1 = i)) as [->|Hji].
             ++ rewrite Hi in Hj1. injection Hj1 as <-. exists t1. split; [apply list_lookup_insert; exact Hlt|].
                split; [exact Hp1|]. split; [exact Hl1|]. rewrite Hcl0. unfold claimed. rewrite Hpc1. split; [reflexivity|discriminate].
             ++ exists tj. rewrite list_lookup_insert_ne by congruence. auto.
      + exists i, t0, r, s1. split; [exact Hi|]. split; [exact Hcl0|]. split; [exact Hs|]. apply Hfin; auto.
    - destruct (Stage2 s ls p I Hm Hp Elk) as (i & t0 & r & s' & Hi & Hcl & Hs & R & I' & Hc).
      { destruct Hcase as [Hcs|Hq]; [|eauto]. exfalso. apply csp_incs in Hcs.
        pose proof (i_lock _ _ _ I p Hp) as HL. rewrite Elk in HL. cbn in HL.
        pose proof (sumZ_ge_elem (incs p) ls j t (fun l _ => incs_nonneg p l) Hj). lia. }
      exists i, t0, r, s'. split; [exact Hi|]. split; [exact Hcl|]. split; [exact Hs|]. apply Hfin; auto.
  Qed.

  Lemma sumZ_pointwise (f : qthread T -> Z) (g : nat -> Z) : forall ls ls', length ls' = length ls ->
    (forall j t t', ls !! j = Some t -> ls' !! j = Some t' -> f t' = f t + g j) ->
    sumZ f ls' = sumZ f ls + sumZ g (seq 0 (length ls)).
  Proof.
    revert g. intros g ls. revert g. induction ls as [|t ls IH]; intros g [|t' ls'] Hl H; cbn in *; try lia.
    pose proof (H 0%nat t t' eq_refl eq_refl). rewrite (IH (fun j => g (S j)) ls'); [|lia|].
    - rewrite <- seq_shift. assert (E : forall l, sumZ g (map S l) = sumZ (fun j => g (S j)) l).
      { induction l as [|a l IHl]; cbn; [reflexivity|]. rewrite IHl. reflexivity. }
      rewrite E. lia.
    - intros j x x' Hx Hx'. apply (H (S j)); assumption.
  Qed.
  Lemma sumZ_single (i : nat) n : (i < n)%nat -> forall v, sumZ (fun j => if decide (j = i) then v else 0) (seq 0 n) = v.
  Proof.
    intros Hi v. rewrite (seq_app i (n - i) 0) || idtac.
    replace n with (i + (1 + (n - i - 1)))%nat by lia. rewrite seq_app, sumZ_app. cbn [plus]. cbn.
    rewrite decide_True by reflexivity.
    rewrite (sumZ_zero _ (seq 0 i)), (sumZ_zero _ (seq (S i) _)); [lia| |].
    - intros j Hj. apply elem_of_seq in Hj. rewrite decide_False by lia. reflexivity.
    - intros j Hj. apply elem_of_seq in Hj. rewrite decide_False by lia. reflexivity.
  Qed.

  Lemma drain w0 n : forall s ls, nclaimed ls <= Z.of_nat n -> inv w0 s ls -> (forall p, (p < cap)%nat -> 0 <= m (q_c s) p <= 1) ->
    exists s' ls', reach step (s, ls) (s', ls') /\ inv w0 s' ls' /\ q_c s' = q_c s /\ length ls' = length ls /\
      (forall t, t ∈ ls' -> claimed t = false) /\
      (forall i t, ls !! i = Some t -> exists t', ls' !! i = Some t' /\ drained t t').
  Proof.
    induction n as [|n IH]; intros s ls Hn I Hm.
    - exists s, ls. split; [apply rtc_refl|]. split; [exact I|]. split; [reflexivity|]. split; [reflexivity|].
      assert (Hall : forall t, t ∈ ls -> claimed t = false).
      { intros t Ht. apply elem_of_list_lookup in Ht as [i Hi].
        pose proof (sumZ_ge_elem (fun t => if claimed t then 1 else 0) ls i t) as H. cbn in H.
        specialize (H ltac:(intros l _; destruct (claimed l); lia) Hi). unfold nclaimed in Hn. destruct (claimed t); [lia|reflexivity]. }
      split; [exact Hall|]. intros i t Hi. exists t. split; [exact Hi|]. left. split; [|reflexivity]. apply Hall. eapply elem_of_list_lookup_2; exact Hi.
    - destruct (decide (nclaimed ls <= Z.of_nat n)) as [Hle|Hgt]; [apply IH; assumption|].
      destruct (complete_one w0 s ls I Hm) as (i & t & r & s1 & Hi & Hcl & Hsuc & ls1 & R1 & I1 & Hc1 & Hl1 & Hpt); [lia|].
      assert (Hcount : nclaimed ls1 = nclaimed ls - 1).
      { unfold nclaimed. rewrite (sumZ_pointwise _ (fun j => if decide (j = i) then -1 else 0) ls ls1 Hl1).
        - rewrite sumZ_single by (eapply lookup_lt_Some; exact Hi). lia.
        - intros j tj tj' Hj Hj'. destruct (Hpt j tj Hj) as (tj2 & Hj2 & Hd). rewrite Hj' in Hj2. injection Hj2 as <-.
          destruct (decide (j = i)) as [->|?].
          + rewrite Hi in Hj. injection Hj as <-. subst tj'. rewrite Hcl. reflexivity.
          + destruct Hd as (_ & _ & -> & _). lia. }
      destruct (IH s1 ls1) as (s2 & ls2 & R2 & I2 & Hc2 & Hl2 & Hall & Hd2); [lia|exact I1|rewrite Hc1; exact Hm|].
      exists s2, ls2. split; [etrans; eassumption|]. split; [exact I2|]. split; [congruence|]. split; [congruence|]. split; [exact Hall|].
      intros j tj Hj. destruct (Hpt j tj Hj) as (tj1 & Hj1 & Hd1). destruct (Hd2 j tj1 Hj1) as (tj2 & Hj2 & Hdr). exists tj2. split; [exact Hj2|].
      destruct (decide (j = i)) as [->|Hne].
      + rewrite Hi in Hj. injection Hj as <-. subst tj1. right. split; [exact Hcl|].
        destruct Hdr as [[_ ->]|[Hx _]]; [eauto|discriminate Hx].
      + destruct Hd1 as (Hp1 & Hlg1 & Hcl1 & Hsame). destruct (claimed tj) eqn:Ecl.
        * right. split; [exact Ecl|]. destruct Hdr as [[Hx _]|[_ (r' & Hs' & ->)]]; [congruence|].
          exists r'. split; [exact Hs'|]. unfold finish. rewrite Hp1, Hlg1. reflexivity.
        * left. split; [exact Ecl|]. rewrite (Hsame eq_refl) in Hdr. destruct Hdr as [[_ ->]|[Hx _]]; [reflexivity|congruence].
  Qed.

  (** ** completing everything, when the counters never claim a slot twice *)
  Definition stage (pc : qpc T) : nat := match pc with QCtl n => S n | _ => 0%nat end.
  Definition mu (t : qthread T) : Z := 4 * Z.of_nat (length (q_prog t)) - Z.of_nat (stage (q_pc t)).

  Lemma unclaimed_step t i s s' t' : tok t -> claimed t = false -> cok (q_c s) -> step i s t = Some (s', t') ->
    (claimed t' = false /\ mu t' < mu t) \/ (claimed t' = true /\ q_prog t' = q_prog t /\ q_log t' = q_log t /\ q_prog t <> []).
  Proof.
    intros [_ Hpc] Hcl Hc E. unfold qstep in E. destruct (q_prog t) as [|op rest] eqn:Epr; [discriminate|].
    unfold claimed in Hcl. unfold mu. destruct (q_pc t) as [|n|p|p|p|p|p|p|p y|p r] eqn:Epc; try discriminate.
    - injection E as <- <-. left. split; [reflexivity|]. cbn [goto q_prog q_pc stage]. rewrite Epr. lia.
    - destruct Hpc as [Hn _]. pose proof (Hctl (q_c s) (kind_of op) n Hc Hn) as Hk.
      destruct (ctl (q_c s) (kind_of op) n) as [c' n'| |c'|c' p]; injection E as <- <-.
      + left. split; [reflexivity|]. cbn [goto q_prog q_pc stage]. rewrite Epr. lia.
      + left. split; [reflexivity|]. cbn [finish q_prog q_pc stage]. rewrite Epr. cbn [tail length]. lia.
      + left. split; [reflexivity|]. cbn [finish q_prog q_pc stage]. rewrite Epr. cbn [tail length]. lia.
      + right. cbn. rewrite Epr. split; [reflexivity|]. split; [reflexivity|]. split; [reflexivity|discriminate].
  Qed.

  Lemma mu_nonneg t : tok t -> 0 <= mu t.
  Proof.
    intros [_ H]. unfold mu. destruct (q_pc t); cbn [stage]; try lia. destruct H as [H1 H2]. destruct (q_prog t); [congruence|]. cbn [length]. lia.
  Qed.

  Lemma complete_all w0 (Hm : forall c p, cok c -> (p < cap)%nat -> 0 <= m c p <= 1) n : forall s ls, sumZ mu ls <= Z.of_nat n -> inv w0 s ls ->
    (forall t, t ∈ ls -> claimed t = false) -> exists s' ls', reach step (s, ls) (s', ls') /\ finished ls'.
  Proof.
    induction n as [|n IH]; intros s ls Hn I Hun.
    - exists s, ls. split; [apply rtc_refl|]. intros t Ht.
      assert (Hz : mu t <= 0).
      { apply elem_of_list_lookup in Ht as [i Hi]. pose proof (sumZ_ge_elem mu ls i t) as H.
        specialize (H ltac:(intros l Hl; apply mu_nonneg, (i_tok _ _ _ I), Hl) Hi). lia. }
      pose proof (Hun t Ht) as Hcl. pose proof (i_tok _ _ _ I t Ht) as [_ Htk]. unfold claimed in Hcl. unfold mu in Hz.
      destruct (q_pc t) as [|k| | | | | | | |]; try discriminate; cbn [stage] in Hz.
      + destruct (q_prog t); [auto|cbn [length] in Hz; lia].
      + destruct Htk as [H1 H2]. destruct (q_prog t); [congruence|]. cbn [length] in Hz. lia.
    - destruct (decide (Exists (fun t => q_prog t <> []) ls)) as [Hex|Hall].
      + apply Exists_exists in Hex as (t & Ht & Hne). pose proof Ht as Hi. apply elem_of_list_lookup in Hi as [i Hi].
        destruct (not_stuck _ _ _ _ _ I Hi Hne) as (s1 & t1 & E). pose proof (step_inv _ _ _ _ _ _ _ I Hi E) as I1.
        assert (R1 : reach step (s, ls) (s1, <[i := t1]> ls)) by (eapply rtc_l; [econstructor; eassumption|apply rtc_refl]).
        assert (Hlt : (i < length ls)%nat) by (eapply lookup_lt_Some; exact Hi).
        destruct (unclaimed_step _ _ _ _ _ (i_tok _ _ _ I t Ht) (Hun t Ht) (i_cok _ _ _ I) E) as [[Hcl Hmu]|(Hcl & Hp1 & Hl1 & _)].
        * destruct (IH s1 (<[i := t1]> ls)) as (s2 & ls2 & R2 & F2).
          { rewrite (sumZ_insert _ _ _ _ _ Hi). lia. } { exact I1. }
          { intros t0 Ht0. apply elem_of_list_lookup in Ht0 as [j Hj]. destruct (decide (i = j)) as [->|Hij].
            - rewrite list_lookup_insert in Hj by exact Hlt. injection Hj as <-. exact Hcl.
            - rewrite list_lookup_insert_ne in Hj by exact Hij. apply Hun. eapply elem_of_list_lookup_2; exact Hj. }
          exists s2, ls2. split; [etrans; eassumption|exact F2].
        * destruct (drain w0 (length ls) s1 (<[i := t1]> ls)) as (s2 & ls2 & R2 & I2 & Hc2 & Hl2 & Hcl2 & Hd2).
          { unfold nclaimed. rewrite (sumZ_insert _ _ _ _ _ Hi), (sumZ_zero _ ls); [|intros t0 Ht0; rewrite (Hun t0 Ht0); reflexivity].
            rewrite Hcl, (Hun t Ht). lia. } { exact I1. } { intros p Hp. apply Hm; [apply (i_cok _ _ _ I1)|exact Hp]. }
          destruct (Hd2 i t1) as (t2 & Ht2 & Hdr); [apply list_lookup_insert; exact Hlt|].
          destruct Hdr as [[Hx _]|[_ (r & Hs & ->)]]; [congruence|].
          assert (Els : ls2 = <[i := finish t1 r]> ls).
          { apply list_eq. intros j. destruct (decide (i = j)) as [->|Hij]; [rewrite Ht2, list_lookup_insert by exact Hlt; reflexivity|].
            rewrite list_lookup_insert_ne by exact Hij. destruct (ls !! j) as [tj|] eqn:Ej.
            - destruct (Hd2 j tj) as (tj' & Htj' & Hdj); [rewrite list_lookup_insert_ne by exact Hij; exact Ej|].
              rewrite Htj'. f_equal. destruct Hdj as [[_ ->]|[Hx _]]; [reflexivity|].
              rewrite (Hun tj) in Hx; [discriminate|eapply elem_of_list_lookup_2; exact Ej].
            - apply lookup_ge_None in Ej. apply lookup_ge_None_2. rewrite Hl2, insert_length. exact Ej. }
          destruct (IH s2 ls2) as (s3 & ls3 & R3 & F3).
          { rewrite Els, (sumZ_insert _ _ _ _ _ Hi). assert (mu (finish t1 r) < mu t); [|lia].
            pose proof (i_tok _ _ _ I t Ht) as [_ Htk]. pose proof (Hun t Ht) as Hclt. unfold mu, claimed in *. cbn [finish q_prog q_pc stage]. rewrite Hp1.
            destruct (q_prog t) as [|o rest]; [congruence|]. cbn [tail length].
            destruct (q_pc t); try discriminate; cbn [stage]; lia. }
          { exact I2. } { exact Hcl2. }
          exists s3, ls3. split; [etrans; [exact R1|]; etrans; eassumption|exact F3].
      + exists s, ls. split; [apply rtc_refl|]. intros t Ht.
        assert (Hp : q_prog t = []).
        { destruct (q_prog t) eqn:E; [reflexivity|]. exfalso. apply Hall. apply Exists_exists. exists t. rewrite E. split; [exact Ht|discriminate]. }
        split; [exact Hp|]. pose proof (Hun t Ht) as Hcl. pose proof (i_tok _ _ _ I t Ht) as [_ Htk]. unfold claimed in Hcl.
        destruct (q_pc t); try discriminate; [reflexivity|]. destruct Htk as [_ Hx]. congruence.
  Qed.

  Lemma can_finish w0 (Hm : forall c p, cok c -> (p < cap)%nat -> 0 <= m c p <= 1) s ls : inv w0 s ls ->
    exists s' ls', reach step (s, ls) (s', ls') /\ finished ls'.
  Proof.
    intros I. destruct (drain w0 (Z.to_nat (nclaimed ls)) s ls) as (s1 & ls1 & R1 & I1 & Hc1 & _ & Hcl & _).
    { pose proof (nclaimed_nonneg ls). lia. } { exact I. } { intros p Hp. apply Hm; [apply I|exact Hp]. }
    destruct (complete_all w0 Hm (Z.to_nat (sumZ mu ls1)) s1 ls1) as (s2 & ls2 & R2 & F2); auto; [|exists s2, ls2; split; [etrans; eassumption|exact F2]].
    assert (0 <= sumZ mu ls1) by (apply sumZ_nonneg; intros t Ht; apply mu_nonneg, (i_tok _ _ _ I1), Ht). lia.
  Qed.

  (** ** quiescence *)
  Lemma at_rest w0 s ls : inv w0 s ls -> quiescent ls ->
    (forall p, (p < cap)%nat -> lk (q_locks s) p = false /\ Z.b2z (lk (q_occ s) p) = m (q_c s) p /\ live (lkd (q_data s) p) = Z.b2z (lk (q_occ s) p)) /\
    (forall t, t ∈ ls -> push_in_flight t = [] /\ pop_in_flight t = []).
  Proof.
    intros I Hq.
    assert (Hz : forall f : qthread T -> Z, (forall t, q_pc t = QIdle -> f t = 0) -> sumZ f ls = 0).
    { intros f Hf. apply sumZ_zero. intros t Ht. apply Hf. apply Hq. exact Ht. }
    split.
    - intros p Hp. pose proof (i_lock _ _ _ I p Hp) as H1. pose proof (i_net _ _ _ I p Hp) as H2. pose proof (i_live _ _ _ I p Hp) as H3.
      rewrite Hz in H1 by (intros t E; unfold incs; rewrite E; reflexivity).
      rewrite !Hz in H2 by (intros t E; unfold pp, pq; rewrite E; reflexivity).
      rewrite Hz in H3 by (intros t E; unfold lv; rewrite E; reflexivity).
      split; [destruct (lk (q_locks s) p); [discriminate|reflexivity]|]. lia.
    - intros t Ht. apply flight_none; rewrite (Hq t Ht); discriminate.
  Qed.

  (** ** the initial state *)
  Lemma inv_init (s : qshared T C) progs : length (q_data s) = cap -> length (q_occ s) = cap -> q_locks s = replicate cap false -> cok (q_c s) ->
    (forall p op, p ∈ progs -> op ∈ p -> op_wf op) ->
    (forall p, (p < cap)%nat -> Z.b2z (lk (q_occ s) p) = m (q_c s) p) ->
    (forall p, (p < cap)%nat -> live (lkd (q_data s) p) = Z.b2z (lk (q_occ s) p)) ->
    inv (fun w => sumZ (wd w) (q_data s)) s (q_start progs).
  Proof.
    intros L1 L2 Lk Hc Hwf Hm Hlv.
    assert (Hin : forall t, t ∈ q_start progs -> exists p, p ∈ progs /\ t = {| q_prog := p; q_pc := QIdle; q_log := [] |}).
    { intros t Ht. apply elem_of_list_fmap in Ht as (p & -> & Hp). eauto. }
    assert (Hz : forall f : qthread T -> Z, (forall p, f {| q_prog := p; q_pc := QIdle; q_log := [] |} = 0) -> sumZ f (q_start progs) = 0).
    { intros f Hf. apply sumZ_zero. intros t Ht. destruct (Hin t Ht) as (p & _ & ->). apply Hf. }
    split.
    - rewrite Lk, replicate_length. auto.
    - exact Hc.
    - intros t Ht. destruct (Hin t Ht) as (p & Hp & ->). split; [intros op Hop; eapply Hwf; eauto|exact Logic.I].
    - intros p Hp. rewrite Hz by reflexivity. rewrite Lk. unfold lk. rewrite lookup_replicate_2 by exact Hp. reflexivity.
    - intros p Hp. rewrite !Hz by reflexivity. rewrite Hm by exact Hp. lia.
    - intros p Hp. rewrite Hz by reflexivity. rewrite Hlv by exact Hp. lia.
    - intros t Ht. destruct (Hin t Ht) as (p & Hp & ->). exact Logic.I.
    - intros w. rewrite !Hz; [lia| |].
      + intros p. unfold wpop. cbn. reflexivity.
      + intros p. unfold wpush, push_in_flight. cbn. destruct p as [|[] ?]; reflexivity.
  Qed.

  (** ** conservation as multiset equality *)
  Lemma sumZ_bind {A B} (f : B -> Z) (g : A -> list B) (l : list A) : sumZ f (l ≫= g) = sumZ (fun a => sumZ f (g a)) l.
  Proof. induction l as [|a l IH]; [reflexivity|]. cbn. rewrite sumZ_app, <- IH. reflexivity. Qed.
  Lemma sumZ_stored w (l : list (option T)) : sumZ w (stored l) = sumZ (wd w) l.
  Proof. unfold stored. induction l as [|[x|] l IH]; [reflexivity| |]; cbn; unfold id in *; cbn in *; [rewrite <- IH|]; auto. Qed.
End proofs.

Lemma sumZ_perm {T} `{EqDecision T} (l1 l2 : list T) : (forall w : T -> Z, sumZ w l1 = sumZ w l2) -> l1 ≡ₚ l2.
Proof.
  intros H. apply (Permutation_count_occ (fun x y => decide (x = y))). intros x.
  specialize (H (fun y => if decide (y = x) then 1 else 0)).
  assert (E : forall l, Z.of_nat (count_occ (fun x y => decide (x = y)) l x) = sumZ (fun y => if decide (y = x) then 1 else 0) l).
  { induction l as [|y l IH]; [reflexivity|]. cbn. destruct (decide (y = x)); lia. }
  pose proof (E l1). pose proof (E l2). lia.
Qed.
