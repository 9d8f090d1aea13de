From Verif Require Import Base Conc SlotModel SlotSpec Lifetime VectorModel VectorSpec.

  Lemma to_int32_id z : - 2 ^ 31 <= z <= INT_MAX -> to_int32 z = z.
  Proof. unfold to_int32, INT_MAX. intros H. rewrite Z.mod_small by lia. lia. Qed.

  Lemma count_true_prefix : forall (l : list bool) n, (n <= length l)%nat -> (forall p, (p < length l)%nat -> l !! p = Some (bool_decide (p < n)%nat)) ->
    bcount l = Z.of_nat n.
  Proof.
    unfold bcount. induction l as [|b l IH]; intros n Hn H; [cbn in *; lia|]. cbn [length] in *.
    pose proof (H 0%nat ltac:(lia)) as H0. cbn in H0. injection H0 as ->.
    rewrite filter_cons. destruct n as [|n].
    - rewrite bool_decide_eq_false_2 by lia. rewrite decide_False by discriminate. apply (IH 0%nat); [lia|].
      intros p Hp. specialize (H (S p) ltac:(lia)). etransitivity; [exact H|]. apply (f_equal Some). apply bool_decide_ext. lia.
    - rewrite bool_decide_eq_true_2 by lia. rewrite decide_True by reflexivity. cbn [length]. specialize (IH n ltac:(lia)).
      rewrite Nat2Z.inj_succ, IH; [lia|]. intros p Hp. specialize (H (S p) ltac:(lia)). etransitivity; [exact H|]. apply (f_equal Some). apply bool_decide_ext. lia.
  Qed.
  Lemma bcount_replicate_false n : bcount (replicate n false) = 0.
  Proof.
    apply (count_true_prefix _ 0); [lia|]. intros p Hp. rewrite replicate_length in Hp. rewrite lookup_replicate_2 by exact Hp. reflexivity.
  Qed.


(** ** sequential: refinement to a bounded list *)
Local Arguments slot_events : simpl never.
Section seq.
  Context {T : Type} (opt : bool) (ord : nat -> list nat).
  Hypothesis Hord : forall n, ord n ≡ₚ seq 0 n.

  Record vrep (cap : nat) (v : vec T) (l : list T) : Prop := {
    r_n : v_n v = Z.of_nat (length l);
    r_le : (length l <= cap)%nat;
    r_ld : length (v_data v) = cap;
    r_lo : length (v_occ v) = cap;
    r_locks : v_locks v = replicate cap false;
    r_data : forall p, (p < cap)%nat -> v_data v !! p = Some (l !! p);
    r_occ : forall p, (p < cap)%nat -> v_occ v !! p = Some (bool_decide (p < length l)%nat);
    r_life : opt = false -> lifetime_ok nothing (slot_events (v_ev v)) /\
       forall p, live_after nothing (slot_events (v_ev v)) (InSlot p) = bool_decide (p < length l)%nat
  }.

  Section rep.
    Context (cap : nat) (Hcap : 0 < Z.of_nat cap <= INT_MAX).

    Lemma rep_cap v l : vrep cap v l -> v_capacity v = Z.of_nat cap.
    Proof. intros R. unfold v_capacity. rewrite (r_lo _ _ _ R). reflexivity. Qed.
    Lemma rep_size v l : vrep cap v l -> v_size v = Z.of_nat (length l).
    Proof.
      intros R. unfold v_size, clamp_size. rewrite (rep_cap _ _ R), (r_n _ _ _ R). pose proof (r_le _ _ _ R).
      rewrite (proj2 (Z.ltb_ge _ 0)) by lia. rewrite (proj2 (Z.ltb_ge _ _)) by lia. reflexivity.
    Qed.
    Lemma rep_valid v l : vrep cap v l -> v_valid v = true.
    Proof.
      intros R. unfold v_valid. rewrite (rep_cap _ _ R), (rep_size _ _ R), (r_n _ _ _ R), (r_locks _ _ _ R), bcount_replicate_false.
      pose proof (r_le _ _ _ R).
      rewrite (count_true_prefix (v_occ v) (length l)); [|rewrite (r_lo _ _ _ R); lia|intros p Hp; apply (r_occ _ _ _ R); rewrite (r_lo _ _ _ R) in Hp; exact Hp].
      destruct (Z.of_nat cap =? 0) eqn:E; [reflexivity|]. lia.
    Qed.

    Lemma mapM_rep : forall (l : list T) (d : list (option T)), (length l <= length d)%nat -> (forall p, (p < length l)%nat -> d !! p = Some (l !! p)) ->
      mapM id (take (length l) d) = Some l.
    Proof.
      induction l as [|x l IH]; intros d Hl H; [reflexivity|]. destruct d as [|y d]; [cbn in Hl; lia|].
      pose proof (H 0%nat ltac:(cbn; lia)) as H0. cbn in H0. injection H0 as ->. cbn.
      rewrite (IH d); [reflexivity|cbn in Hl; lia|]. intros p Hp. apply (H (S p)). cbn. lia.
    Qed.

    Lemma rep_create : 0 < Z.of_nat cap -> exists v, vec_create (T:=T) (Z.of_nat cap) = Ret v /\ vrep cap v [].
    Proof.
      intros H. unfold vec_create. rewrite (proj2 (Z.ltb_lt _ _)) by exact H. eexists. split; [reflexivity|]. rewrite Nat2Z.id.
      split; cbn; rewrite ?replicate_length; auto; try lia.
      - intros p Hp. rewrite lookup_replicate_2 by exact Hp. reflexivity.
      - intros p Hp. rewrite lookup_replicate_2 by exact Hp. apply (f_equal Some). symmetry. apply bool_decide_eq_false_2. lia.
      - intros _. split; [exact I|]. intros p. reflexivity.
    Qed.

    Lemma push_back_rep v l x : vrep cap v l ->
      exists v', v_push_back v x = Ret (v', bool_decide (length l < cap)%nat) /\ vrep cap v' (if decide (length l < cap)%nat then l ++ [x] else l).
    Proof.
      intros R. unfold v_push_back, v_full. rewrite (rep_size _ _ R), (rep_cap _ _ R). pose proof (r_le _ _ _ R) as Hle.
      destruct (Z.of_nat (length l) =? Z.of_nat cap) eqn:Ef.
      - exists v. rewrite bool_decide_eq_false_2 by lia. rewrite decide_False by lia. auto.
      - assert (Hlt : (length l < cap)%nat) by lia. rewrite bool_decide_eq_true_2 by lia. rewrite decide_True by lia.
        change (v_capacity (v_set_n v _)) with (v_capacity v). rewrite (rep_cap _ _ R), (r_n _ _ _ R).
        rewrite (proj2 (Z.leb_le 0 _)) by lia. rewrite (proj2 (Z.ltb_lt _ _)) by lia. cbn [andb]. rewrite Nat2Z.id. cbn [v_set_n v_locks v_occ].
        rewrite (r_locks _ _ _ R), lookup_replicate_2 by exact Hlt. rewrite (r_occ _ _ _ R) by exact Hlt.
        rewrite bool_decide_eq_false_2 by lia. eexists. split; [reflexivity|].
        split; cbn [v_set_occ v_construct v_set_n v_n v_data v_occ v_locks v_ev]; rewrite ?insert_length, ?app_length; cbn [length].
        + rewrite to_int32_id by (unfold INT_MAX in *; lia). lia.
        + lia.
        + apply R.
        + apply R.
        + apply R.
        + intros p Hp. destruct (decide (p = length l)) as [->|Hne].
          * rewrite list_lookup_insert by (rewrite (r_ld _ _ _ R); exact Hlt). rewrite lookup_app_r by lia. rewrite Nat.sub_diag. reflexivity.
          * rewrite list_lookup_insert_ne by congruence. rewrite (r_data _ _ _ R) by exact Hp. f_equal.
            destruct (decide (p < length l)%nat); [rewrite lookup_app_l by lia; reflexivity|].
            rewrite !lookup_ge_None_2; [reflexivity|rewrite app_length; cbn; lia|lia].
        + intros p Hp. destruct (decide (p = length l)) as [->|Hne].
          * rewrite list_lookup_insert by (rewrite (r_lo _ _ _ R); exact Hlt). rewrite bool_decide_eq_true_2 by lia. reflexivity.
          * rewrite list_lookup_insert_ne by congruence. rewrite (r_occ _ _ _ R) by exact Hp. apply (f_equal Some). apply bool_decide_ext. lia.
        + intros Ho. destruct (r_life _ _ _ R Ho) as [H1 H2]. rewrite slot_events_app. change (slot_events [EvConstruct (InSlot (length l))]) with [EvConstruct (InSlot (length l))].
          split.
          * apply lifetime_ok_app. split; [exact H1|]. cbn. split; [|exact I]. rewrite H2. apply bool_decide_eq_false_2. lia.
          * intros p. rewrite live_after_app. cbn. destruct (decide (InSlot p = InSlot (length l))) as [E|Hne].
            -- injection E as ->. symmetry. apply bool_decide_eq_true_2. lia.
            -- rewrite H2. apply bool_decide_ext. assert (p <> length l) by congruence. lia.
    Qed.

    Lemma rep_events v l e : vrep cap v l -> is_slot_event e = false -> vrep cap (v_log v e) l.
    Proof.
      intros R He. destruct R. split; cbn [v_log v_n v_data v_occ v_locks v_ev]; auto.
      rewrite slot_events_app. assert (E : slot_events [e] = []) by (unfold slot_events; rewrite filter_cons, decide_False by congruence; reflexivity).
      rewrite E, app_nil_r. auto.
    Qed.

    Lemma take_lookup (l : list T) n p : take n l !! p = if decide (p < n)%nat then l !! p else None.
    Proof. destruct (decide (p < n)%nat); [apply lookup_take; assumption|apply lookup_take_ge; lia]. Qed.

    Lemma pop_back_rep v l : vrep cap v l ->
      exists v', v_pop_back v = Ret (v', last l) /\ vrep cap v' (removelast l).
    Proof.
      intros R0. unfold v_pop_back. assert (R : vrep cap (v_log v EvInitCopy) l) by (apply rep_events; auto).
      set (v0 := v_log v EvInitCopy) in *. clearbody v0. clear R0 v.
      unfold v_empty. rewrite (rep_size _ _ R). pose proof (r_le _ _ _ R) as Hle.
      destruct l as [|x l' _] using rev_ind.
      - cbn. eauto.
      - rewrite last_snoc, removelast_last. rewrite (proj2 (Z.eqb_neq _ _)) by (rewrite app_length; cbn; lia).
        change (v_capacity (v_set_n v0 _)) with (v_capacity v0). rewrite (rep_cap _ _ R), (r_n _ _ _ R). rewrite app_length in *. cbn [length] in *.
        rewrite to_int32_id by (unfold INT_MAX in *; lia).
        replace (Z.of_nat (length l' + 1) - 1) with (Z.of_nat (length l')) by lia.
        rewrite (proj2 (Z.leb_le 0 _)) by lia. rewrite (proj2 (Z.ltb_lt _ _)) by lia. cbn [andb]. rewrite Nat2Z.id. cbn [v_set_n v_locks v_occ v_set_occ v_data].
        rewrite (r_locks _ _ _ R), lookup_replicate_2 by lia. rewrite (r_occ _ _ _ R) by lia. rewrite app_length. cbn [length].
        rewrite bool_decide_eq_true_2 by lia. rewrite (r_data _ _ _ R) by lia. rewrite lookup_app_r by lia. rewrite Nat.sub_diag. cbn [list_lookup lookup].
        eexists. split; [reflexivity|].
        split; cbn [v_set_occ v_construct v_destroy v_log v_set_n v_n v_data v_occ v_locks v_ev]; rewrite ?insert_length.
        + reflexivity.
        + lia.
        + apply R.
        + apply R.
        + apply R.
        + intros p Hp. destruct (decide (p = length l')) as [->|Hne].
          * rewrite list_lookup_insert by (rewrite (r_ld _ _ _ R); lia). rewrite lookup_ge_None_2 by lia. reflexivity.
          * rewrite list_lookup_insert_ne by congruence. rewrite (r_data _ _ _ R) by exact Hp. f_equal.
            destruct (decide (p < length l')%nat); [rewrite lookup_app_l by lia; reflexivity|].
            rewrite !lookup_ge_None_2; [reflexivity|lia|rewrite app_length; cbn; lia].
        + intros p Hp. destruct (decide (p = length l')) as [->|Hne].
          * rewrite list_lookup_insert by (rewrite (r_lo _ _ _ R); lia). rewrite bool_decide_eq_false_2 by lia. reflexivity.
          * rewrite list_lookup_insert_ne by congruence. rewrite (r_occ _ _ _ R) by exact Hp. f_equal. rewrite app_length. cbn [length]. apply bool_decide_ext. lia.
        + intros Ho. destruct (r_life _ _ _ R Ho) as [H1 H2]. rewrite app_length in H2. cbn [length] in H2. rewrite <- !app_assoc, slot_events_app.
          match goal with |- context [slot_events (v_ev v0) ++ slot_events ?x] =>
            replace (slot_events x) with [EvRead (InSlot (length l')); EvDestroy (InSlot (length l'))] by reflexivity end.
          split.
          * apply lifetime_ok_app. split; [exact H1|]. cbn. rewrite !H2. rewrite !bool_decide_eq_true_2 by lia. auto.
          * intros p. rewrite live_after_app. cbn. destruct (decide (InSlot p = InSlot (length l'))) as [E|Hne].
            -- injection E as ->. symmetry. apply bool_decide_eq_false_2. lia.
            -- rewrite H2. apply bool_decide_ext. assert (p <> length l') by congruence. lia.
    Qed.

    (** loops *)
    Definition in_loop (begin : nat) (os : list nat) (p : nat) : Prop := (begin <= p)%nat /\ (p - begin)%nat ∈ os.
    Global Instance in_loop_dec begin os p : Decision (in_loop begin os p).
    Proof. unfold in_loop. apply _. Defined.

    Lemma fold_UB (f : nat -> vec T -> outcome (vec T)) os : fold_left (fun acc i => let! v := acc in f i v) os UB = UB.
    Proof. induction os as [|i os IH]; [reflexivity|]. cbn. exact IH. Qed.

    Lemma insert_loop begin (values : list T) : forall os v, (forall i, i ∈ os -> (i < length values)%nat /\ (begin + i < cap)%nat) ->
      length (v_data v) = cap -> length (v_occ v) = cap ->
      exists v', fold_left (fun acc i => let! v := acc in vector_insert begin values i v) os (Ret v) = Ret v' /\
        v_n v' = v_n v /\ v_locks v' = v_locks v /\ length (v_data v') = cap /\ length (v_occ v') = cap /\
        v_ev v' = v_ev v ++ ((fun i => EvConstruct (InSlot (begin + i))) <$> os) /\
        (forall p, v_data v' !! p = if decide (in_loop begin os p) then Some (values !! (p - begin)%nat) else v_data v !! p) /\
        (forall p, v_occ v' !! p = if decide (in_loop begin os p) then Some true else v_occ v !! p).
    Proof.
      induction os as [|i os IH]; intros v Hos Hd Ho.
      - exists v. cbn. rewrite app_nil_r. repeat split; auto; intros p; rewrite decide_False; auto; intros [_ H]; inversion H.
      - destruct (Hos i ltac:(left)) as [Hi1 Hi2]. cbn [fold_left obind]. unfold vector_insert at 2.
        destruct (lookup_lt_is_Some_2 values i Hi1) as [x Hx]. rewrite Hx.
        destruct (lookup_lt_is_Some_2 (v_occ v) (begin + i) ltac:(lia)) as [b Hb]. rewrite Hb.
        destruct (IH (v_set_occ (v_construct v (begin + i) x) (begin + i) true)) as (v' & E & H1 & H2 & H3 & H4 & H5 & H6 & H7).
        { intros j Hj. apply Hos. right. exact Hj. } { cbn. rewrite insert_length. exact Hd. } { cbn. rewrite insert_length. exact Ho. }
        exists v'. split; [exact E|]. split; [exact H1|]. split; [exact H2|]. split; [exact H3|]. split; [exact H4|]. split.
        { rewrite H5. cbn. rewrite <- app_assoc. reflexivity. }
        split; intros p; rewrite ?H6, ?H7; cbn [v_set_occ v_construct v_data v_occ].
        + destruct (decide (in_loop begin os p)) as [Hin|Hnin].
          * rewrite decide_True; [reflexivity|]. destruct Hin. split; [assumption|right; assumption].
          * destruct (decide (p = (begin + i)%nat)) as [->|Hne].
            -- rewrite list_lookup_insert by lia. rewrite decide_True; [|split; [lia|apply elem_of_cons; left; lia]]. replace (begin + i - begin)%nat with i by lia. rewrite Hx. reflexivity.
            -- rewrite list_lookup_insert_ne by congruence. rewrite decide_False; [reflexivity|].
               intros [Hge Hin]. apply elem_of_cons in Hin as [E1|Hin]; [lia|]. apply Hnin. split; assumption.
        + destruct (decide (in_loop begin os p)) as [Hin|Hnin].
          * rewrite decide_True; [reflexivity|]. destruct Hin. split; [assumption|right; assumption].
          * destruct (decide (p = (begin + i)%nat)) as [->|Hne].
            -- rewrite list_lookup_insert by lia. rewrite decide_True; [|split; [lia|apply elem_of_cons; left; lia]]. reflexivity.
            -- rewrite list_lookup_insert_ne by congruence. rewrite decide_False; [reflexivity|].
               intros [Hge Hin]. apply elem_of_cons in Hin as [E1|Hin]; [lia|]. apply Hnin. split; assumption.
    Qed.

    (** erase (update_occ = true) and destruction (update_occ = false) *)
    Definition erase1 (upd : bool) (begin i : nat) (v : vec T) : outcome (vec T) :=
      if upd then vector_erase begin i v else destroy_slot (begin + i) v.
    Lemma erase_loop upd begin : forall os v, NoDup os -> (forall i, i ∈ os -> (begin + i < cap)%nat /\ exists x, v_data v !! (begin + i)%nat = Some (Some x)) ->
      length (v_data v) = cap -> length (v_occ v) = cap ->
      exists v', fold_left (fun acc i => let! v := acc in erase1 upd begin i v) os (Ret v) = Ret v' /\
        v_n v' = v_n v /\ v_locks v' = v_locks v /\ length (v_data v') = cap /\ length (v_occ v') = cap /\
        v_ev v' = v_ev v ++ ((fun i => EvDestroy (InSlot (begin + i))) <$> os) /\
        (forall p, v_data v' !! p = if decide (in_loop begin os p) then Some None else v_data v !! p) /\
        (forall p, v_occ v' !! p = if decide (in_loop begin os p) then (if upd then Some false else v_occ v !! p) else v_occ v !! p).
    Proof.
      induction os as [|i os IH]; intros v Hnd Hos Hd Ho.
      - exists v. cbn. rewrite app_nil_r. repeat split; auto; intros p; rewrite decide_False; auto; intros [_ H]; inversion H.
      - destruct (Hos i ltac:(left)) as [Hi1 [x Hx]]. apply NoDup_cons in Hnd as [Hni Hnd].
        assert (Hstep : exists v1, erase1 upd begin i v = Ret v1 /\ v_n v1 = v_n v /\ v_locks v1 = v_locks v /\
                   v_ev v1 = v_ev v ++ [EvDestroy (InSlot (begin + i))] /\ v_data v1 = <[(begin + i)%nat := None]> (v_data v) /\
                   v_occ v1 = if upd then <[(begin + i)%nat := false]> (v_occ v) else v_occ v).
        { unfold erase1, vector_erase, destroy_slot. rewrite Hx. destruct upd; eexists; (split; [reflexivity|]); cbn; auto 10. }
        destruct Hstep as (v1 & E1 & Hn1 & Hlk1 & Hev1 & Hd1 & Ho1).
        cbn [fold_left obind]. rewrite E1.
        destruct (IH v1 Hnd) as (v' & E & H1 & H2 & H3 & H4 & H5 & H6 & H7).
        { intros j Hj. destruct (Hos j ltac:(right; exact Hj)) as [Hj1 [y Hy]]. split; [exact Hj1|]. exists y. rewrite Hd1.
          rewrite list_lookup_insert_ne; [exact Hy|]. intros E. assert (i = j) by lia. subst. contradiction. }
        { rewrite Hd1, insert_length. exact Hd. } { rewrite Ho1. destruct upd; rewrite ?insert_length; exact Ho. }
        exists v'. split; [exact E|]. split; [congruence|]. split; [congruence|]. split; [exact H3|]. split; [exact H4|]. split.
        { rewrite H5, Hev1. cbn. rewrite <- app_assoc. reflexivity. }
        split; intros p; rewrite ?H6, ?H7, ?Hd1, ?Ho1.
        + destruct (decide (in_loop begin os p)) as [Hin|Hnin].
          * rewrite decide_True; [reflexivity|]. destruct Hin. split; [assumption|right; assumption].
          * destruct (decide (p = (begin + i)%nat)) as [->|Hne].
            -- rewrite list_lookup_insert by lia. rewrite decide_True; [reflexivity|split; [lia|apply elem_of_cons; left; lia]].
            -- rewrite list_lookup_insert_ne by congruence. rewrite decide_False; [reflexivity|].
               intros [Hge Hin]. apply elem_of_cons in Hin as [E2|Hin]; [lia|]. apply Hnin. split; assumption.
        + destruct upd.
          * destruct (decide (in_loop begin os p)) as [Hin|Hnin].
            -- rewrite decide_True; [reflexivity|]. destruct Hin. split; [assumption|right; assumption].
            -- destruct (decide (p = (begin + i)%nat)) as [->|Hne].
               ++ rewrite list_lookup_insert by lia. rewrite decide_True; [reflexivity|split; [lia|apply elem_of_cons; left; lia]].
               ++ rewrite list_lookup_insert_ne by congruence. rewrite decide_False; [reflexivity|].
                  intros [Hge Hin]. apply elem_of_cons in Hin as [E2|Hin]; [lia|]. apply Hnin. split; assumption.
          * destruct (decide (in_loop begin os p)), (decide (in_loop begin (i :: os) p)); reflexivity.
    Qed.

    Lemma in_ord n i : i ∈ ord n <-> (i < n)%nat.
    Proof. rewrite (Hord n), elem_of_seq. lia. Qed.
    Lemma in_loop_ord begin n p : in_loop begin (ord n) p <-> (begin <= p < begin + n)%nat.
    Proof. unfold in_loop. rewrite in_ord. lia. Qed.
    Lemma nodup_ord n : NoDup (ord n).
    Proof. rewrite (Hord n). apply NoDup_seq. Qed.

    (** lifetimes of a batch of constructions / destructions *)
    Lemma slot_events_batch (f : nat -> event) os : (forall i, is_slot_event (f i) = true) -> slot_events (f <$> os) = f <$> os.
    Proof.
      intros H. unfold slot_events. induction os as [|i os IH]; [reflexivity|]. rewrite fmap_cons, filter_cons, decide_True by apply H. rewrite IH. reflexivity.
    Qed.
    Lemma construct_batch begin os : NoDup os -> forall live, (forall i, i ∈ os -> live (InSlot (begin + i)) = false) ->
      lifetime_ok live ((fun i => EvConstruct (InSlot (begin + i))) <$> os) /\
      forall p, live_after live ((fun i => EvConstruct (InSlot (begin + i))) <$> os) (InSlot p) = if decide (in_loop begin os p) then true else live (InSlot p).
    Proof.
      induction 1 as [|i os Hni Hnd IH]; intros live Hl.
      - split; [exact I|]. intros p. rewrite decide_False; [reflexivity|]. intros [_ H]. inversion H.
      - destruct (IH (fun q => if decide (q = InSlot (begin + i)) then true else live q)) as [H1 H2].
        { intros j Hj. rewrite decide_False; [apply Hl; right; exact Hj|]. intros E. injection E as E. assert (i = j) by lia. subst. contradiction. }
        cbn. split; [split; [apply Hl; left|exact H1]|]. intros p. rewrite H2.
        destruct (decide (in_loop begin os p)) as [Hin|Hnin].
        + rewrite decide_True; [reflexivity|]. destruct Hin. split; [assumption|right; assumption].
        + destruct (decide (InSlot p = InSlot (begin + i))) as [E|Hne].
          * injection E as ->. rewrite decide_True; [reflexivity|split; [lia|apply elem_of_cons; left; lia]].
          * rewrite decide_False; [reflexivity|]. intros [Hge Hin]. apply elem_of_cons in Hin as [E1|Hin]; [apply Hne; f_equal; lia|]. apply Hnin. split; assumption.
    Qed.
    Lemma destroy_batch begin os : NoDup os -> forall live, (forall i, i ∈ os -> live (InSlot (begin + i)) = true) ->
      lifetime_ok live ((fun i => EvDestroy (InSlot (begin + i))) <$> os) /\
      forall p, live_after live ((fun i => EvDestroy (InSlot (begin + i))) <$> os) (InSlot p) = if decide (in_loop begin os p) then false else live (InSlot p).
    Proof.
      induction 1 as [|i os Hni Hnd IH]; intros live Hl.
      - split; [exact I|]. intros p. rewrite decide_False; [reflexivity|]. intros [_ H]. inversion H.
      - destruct (IH (fun q => if decide (q = InSlot (begin + i)) then false else live q)) as [H1 H2].
        { intros j Hj. rewrite decide_False; [apply Hl; right; exact Hj|]. intros E. injection E as E. assert (i = j) by lia. subst. contradiction. }
        cbn. split; [split; [apply Hl; left|exact H1]|]. intros p. rewrite H2.
        destruct (decide (in_loop begin os p)) as [Hin|Hnin].
        + rewrite decide_True; [reflexivity|]. destruct Hin. split; [assumption|right; assumption].
        + destruct (decide (InSlot p = InSlot (begin + i))) as [E|Hne].
          * injection E as ->. rewrite decide_True; [reflexivity|split; [lia|apply elem_of_cons; left; lia]].
          * rewrite decide_False; [reflexivity|]. intros [Hge Hin]. apply elem_of_cons in Hin as [E1|Hin]; [apply Hne; f_equal; lia|]. apply Hnin. split; assumption.
    Qed.

    Lemma insert_rep v l pos vals : vrep cap v l -> Z.of_nat cap + Z.of_nat (length vals) <= INT_MAX ->
      exists v', v_insert ord v pos vals = Ret v' /\
        vrep cap v' (if (pos =? Z.of_nat (length l)) && (Z.of_nat (length l) + Z.of_nat (length vals) <=? Z.of_nat cap) then l ++ vals else l).
    Proof.
      intros R Hfit. unfold v_insert. rewrite (rep_size _ _ R), (rep_cap _ _ R). pose proof (r_le _ _ _ R) as Hle.
      destruct (pos =? Z.of_nat (length l)) eqn:Epos; cbn [negb andb]; [|eauto].
      rewrite (to_int32_id (Z.of_nat (length vals))) by (unfold INT_MAX in *; lia).
      rewrite (proj2 (Z.leb_le (- 2 ^ 31) _)) by lia. rewrite (proj2 (Z.leb_le _ INT_MAX)) by lia. cbn [andb].
      destruct (Z.of_nat cap <? Z.of_nat (length l) + Z.of_nat (length vals)) eqn:Ecap.
      - rewrite (proj2 (Z.leb_gt _ _)) by lia. eauto.
      - rewrite (proj2 (Z.leb_le _ (Z.of_nat cap))) by lia. rewrite (proj2 (Z.leb_le 0 _)) by lia.
        unfold v_for_each. rewrite !Nat2Z.id.
        destruct (insert_loop (length l) vals (ord (length vals)) v) as (v' & E & H1 & H2 & H3 & H4 & H5 & H6 & H7).
        { intros i Hi. apply in_ord in Hi. lia. } { apply R. } { apply R. }
        rewrite E. cbn [obind]. eexists. split; [reflexivity|].
        split; cbn [v_set_n v_n v_data v_occ v_locks v_ev]; rewrite ?app_length; auto.
        + lia.
        + lia.
        + rewrite H2. apply R.
        + intros p Hp. rewrite H6. destruct (decide (in_loop _ _ p)) as [Hin|Hnin]; rewrite in_loop_ord in *.
          * rewrite lookup_app_r by lia. reflexivity.
          * rewrite (r_data _ _ _ R) by exact Hp. f_equal. destruct (decide (p < length l)%nat); [rewrite lookup_app_l by lia; reflexivity|].
            rewrite !lookup_ge_None_2; [reflexivity|rewrite app_length; lia|lia].
        + intros p Hp. rewrite H7. destruct (decide (in_loop _ _ p)) as [Hin|Hnin]; rewrite in_loop_ord in *.
          * apply (f_equal Some). symmetry. apply bool_decide_eq_true_2. lia.
          * rewrite (r_occ _ _ _ R) by exact Hp. apply (f_equal Some). apply bool_decide_ext. lia.
        + intros Ho. destruct (r_life _ _ _ R Ho) as [L1 L2]. rewrite H5, slot_events_app, slot_events_batch by reflexivity.
          destruct (construct_batch (length l) (ord (length vals)) (nodup_ord _) (live_after nothing (slot_events (v_ev v)))) as [B1 B2].
          { intros i Hi. rewrite L2. apply bool_decide_eq_false_2. lia. }
          split; [apply lifetime_ok_app; auto|]. intros p. rewrite live_after_app, B2, L2.
          destruct (decide (in_loop _ _ p)) as [Hin|Hnin]; rewrite in_loop_ord in *.
          * symmetry. apply bool_decide_eq_true_2. lia.
          * apply bool_decide_ext. lia.
    Qed.

    (** removal of the elements from position n on *)
    Lemma truncate_rep v v' l n : vrep cap v l -> (n <= length l)%nat -> v_locks v' = v_locks v -> length (v_data v') = cap -> length (v_occ v') = cap ->
      v_ev v' = v_ev v ++ ((fun i => EvDestroy (InSlot (n + i))) <$> ord (length l - n)) ->
      (forall p, v_data v' !! p = if decide (in_loop n (ord (length l - n)) p) then Some None else v_data v !! p) ->
      (forall p, (p < cap)%nat -> v_occ v' !! p = Some (bool_decide (p < n)%nat)) -> vrep cap (v_set_n v' (Z.of_nat n)) (take n l).
    Proof.
      intros R Hn H2 H3 H4 H5 H6 H7. pose proof (r_le _ _ _ R) as Hle.
      assert (Hlt : length (take n l) = n) by (rewrite take_length; lia).
      split; cbn [v_set_n v_n v_data v_occ v_locks v_ev]; rewrite ?Hlt; auto.
      - lia.
      - rewrite H2. apply R.
      - intros p Hp. rewrite H6, take_lookup. destruct (decide (in_loop _ _ p)) as [Hin|Hnin]; rewrite in_loop_ord in *.
        + rewrite decide_False by lia. reflexivity.
        + rewrite (r_data _ _ _ R) by exact Hp. f_equal. destruct (decide (p < n)%nat); [reflexivity|]. apply lookup_ge_None_2. lia.
      - intros Ho. destruct (r_life _ _ _ R Ho) as [L1 L2]. rewrite H5, slot_events_app, slot_events_batch by reflexivity.
        destruct (destroy_batch n (ord (length l - n)) (nodup_ord _) (live_after nothing (slot_events (v_ev v)))) as [B1 B2].
        { intros i Hi. apply in_ord in Hi. rewrite L2. apply bool_decide_eq_true_2. lia. }
        split; [apply lifetime_ok_app; auto|]. intros p. rewrite live_after_app, B2, L2.
        destruct (decide (in_loop _ _ p)) as [Hin|Hnin]; rewrite in_loop_ord in *.
        + symmetry. apply bool_decide_eq_false_2. lia.
        + apply bool_decide_ext. lia.
    Qed.

    Lemma erase_rep v l b e : vrep cap v l -> - INT_MAX + Z.of_nat cap <= b <= INT_MAX ->
      if (e =? Z.of_nat (length l)) && (0 <=? b)
      then (if b <=? e then exists v', v_erase ord v b e = Ret v' /\ vrep cap v' (take (Z.to_nat b) l) else v_erase ord v b e = UB)
      else v_erase ord v b e = Ret v.
    Proof.
      intros R Hfit. unfold v_erase. rewrite (rep_size _ _ R). pose proof (r_le _ _ _ R) as Hle.
      destruct (e =? Z.of_nat (length l)) eqn:Ee; cbn [negb andb]; [|reflexivity]. apply Z.eqb_eq in Ee. subst e.
      rewrite (to_int32_id (Z.of_nat (length l) - b)) by (unfold INT_MAX in *; lia).
      replace (Z.of_nat (length l) - (Z.of_nat (length l) - b)) with b by lia.
      rewrite (proj2 (Z.leb_le (- 2 ^ 31) _)) by (unfold INT_MAX in *; lia). rewrite (proj2 (Z.leb_le _ INT_MAX)) by lia. cbn [andb].
      destruct (0 <=? b) eqn:Eb; [|rewrite (proj2 (Z.ltb_lt _ _)) by lia; reflexivity].
      rewrite (proj2 (Z.ltb_ge _ _)) by lia. destruct (b <=? Z.of_nat (length l)) eqn:Ebe.
      - rewrite (proj2 (Z.leb_le 0 _)) by lia. unfold v_for_each.
        replace (Z.to_nat (Z.of_nat (length l) - b)) with (length l - Z.to_nat b)%nat by lia.
        destruct (erase_loop true (Z.to_nat b) (ord (length l - Z.to_nat b)) v) as (v' & E & H1 & H2 & H3 & H4 & H5 & H6 & H7).
        { apply nodup_ord. }
        { intros i Hi. apply in_ord in Hi. split; [lia|]. destruct (lookup_lt_is_Some_2 l (Z.to_nat b + i) ltac:(lia)) as [x Hx].
          exists x. rewrite (r_data _ _ _ R) by lia. rewrite Hx. reflexivity. }
        { apply R. } { apply R. }
        cbn [erase1] in E. change (fun acc i => let! v := acc in erase1 true (Z.to_nat b) i v) with (fun acc i => let! v := acc in vector_erase (T:=T) (Z.to_nat b) i v) in E.
        rewrite E. cbn [obind]. eexists. split; [reflexivity|]. replace b with (Z.of_nat (Z.to_nat b)) at 1 by lia.
        eapply truncate_rep; eauto; [lia|].
        intros p Hp. rewrite H7. destruct (decide (in_loop _ _ p)) as [Hin|Hnin]; rewrite in_loop_ord in *.
        + apply (f_equal Some). symmetry. apply bool_decide_eq_false_2. lia.
        + rewrite (r_occ _ _ _ R) by exact Hp. apply (f_equal Some). apply bool_decide_ext. lia.
      - rewrite (proj2 (Z.leb_gt 0 _)) by lia. reflexivity.
    Qed.

    Lemma clear_rep v l : vrep cap v l -> exists v', v_clear opt ord v = Ret v' /\ vrep cap v' [].
    Proof.
      intros R. unfold v_clear, v_empty. rewrite (rep_size _ _ R). pose proof (r_le _ _ _ R) as Hle.
      destruct (Z.of_nat (length l) =? 0) eqn:E0.
      { destruct l; [|cbn in E0; lia]. eauto. }
      destruct (bool_dec opt true) as [Eo|Eo]; [|apply not_true_is_false in Eo].
      - rewrite Eo. cbn [obind]. eexists. split; [reflexivity|].
        split; cbn [v_forget v_n v_data v_occ v_locks v_ev]; rewrite ?replicate_length; auto; try apply R; try (cbn; lia).
        + intros p Hp. rewrite lookup_replicate_2 by (rewrite (r_ld _ _ _ R); exact Hp). reflexivity.
        + intros p Hp. rewrite lookup_replicate_2 by (rewrite (r_lo _ _ _ R); exact Hp). apply (f_equal Some). symmetry. apply bool_decide_eq_false_2. cbn. lia.
      - rewrite Eo. unfold v_for_each. rewrite Nat2Z.id.
        destruct (erase_loop false 0 (ord (length l)) v) as (v' & E & H1 & H2 & H3 & H4 & H5 & H6 & H7).
        { apply nodup_ord. }
        { intros i Hi. apply in_ord in Hi. split; [lia|]. destruct (lookup_lt_is_Some_2 l i ltac:(lia)) as [x Hx].
          exists x. cbn. rewrite (r_data _ _ _ R) by lia. rewrite Hx. reflexivity. }
        { apply R. } { apply R. }
        change (fun acc i => let! v := acc in erase1 false 0 i v) with (fun acc i => let! v := acc in destroy_slot (T:=T) i v) in E.
        rewrite E. cbn [obind]. eexists. split; [reflexivity|]. change ([] : list T) with (take 0 l).
        set (v1 := {| v_n := v_n v'; v_data := v_data v'; v_occ := replicate (length (v_occ v')) false; v_locks := v_locks v'; v_ev := v_ev v' |}).
        change ({| v_n := 0; v_data := v_data v'; v_occ := replicate (length (v_occ v')) false; v_locks := v_locks v'; v_ev := v_ev v' |}) with (v_set_n v1 (Z.of_nat 0)).
        eapply truncate_rep; cbn [v1 v_n v_data v_occ v_locks v_ev]; eauto; try rewrite Nat.sub_0_r; auto; [lia|rewrite replicate_length; exact H4|].
        intros p Hp. rewrite lookup_replicate_2 by lia. f_equal.
    Qed.

    Lemma index_rep v l n : vrep cap v l -> (length l <= cap)%nat ->
      v_index v n = match spec_get l n with Ret (_, RVal x) => Ret x | _ => UB end.
    Proof.
      intros R Hle. unfold v_index, spec_get. destruct (0 <=? n) eqn:E; [|reflexivity].
      destruct (decide (Z.to_nat n < cap)%nat).
      - rewrite (r_data _ _ _ R) by assumption. destruct (l !! Z.to_nat n); reflexivity.
      - rewrite !lookup_ge_None_2; [reflexivity|lia|rewrite (r_ld _ _ _ R); lia].
    Qed.

    Lemma head_lookup (l : list T) : head l = l !! 0%nat.
    Proof. destruct l; reflexivity. Qed.

    Lemma step_rep v l op : vrep cap v l -> op_fits (Z.of_nat cap) op ->
      match spec_vstep (Z.of_nat cap) l op with
      | Ret (l', r) => exists v', vec_step opt ord v op = Ret (v', r) /\ vrep cap v' l'
      | UB => vec_step opt ord v op = UB
      | Hang => False
      end.
    Proof.
      intros R Hfit. pose proof (r_le _ _ _ R) as Hle. destruct op as [x| |pos vals|b e| | | | |n|n| | | |]; cbn [spec_vstep vec_step op_fits] in *.
      - destruct (push_back_rep v l x R) as (v' & E & R'). rewrite E. cbn [obind].
        destruct (Z.of_nat (length l) <? Z.of_nat cap) eqn:El.
        + rewrite bool_decide_eq_true_2 by lia. rewrite decide_True in R' by lia. eauto.
        + rewrite bool_decide_eq_false_2 by lia. rewrite decide_False in R' by lia. eauto.
      - destruct (pop_back_rep v l R) as (v' & E & R'). rewrite E. cbn [obind]. destruct (last l) eqn:Elast; [eauto|].
        destruct l as [|y l _] using rev_ind; [eauto|]. rewrite last_snoc in Elast. discriminate.
      - destruct (insert_rep v l pos vals R Hfit) as (v' & E & R'). rewrite E. cbn [obind]. destruct (_ && _); eauto.
      - pose proof (erase_rep v l b e R Hfit) as H. destruct ((e =? Z.of_nat (length l)) && (0 <=? b)) eqn:E1.
        + destruct (b <=? e) eqn:E2; [|rewrite H; reflexivity]. destruct H as (v' & E & R'). rewrite E. cbn. eauto.
        + rewrite H. cbn. eauto.
      - destruct (clear_rep v l R) as (v' & E & R'). rewrite E. cbn. eauto.
      - rewrite (rep_size _ _ R). eauto.
      - unfold v_empty. rewrite (rep_size _ _ R). eauto.
      - unfold v_full. rewrite (rep_size _ _ R), (rep_cap _ _ R). eauto.
      - rewrite (index_rep _ _ _ R Hle). unfold spec_get. destruct (0 <=? n); [|reflexivity]. destruct (l !! Z.to_nat n); [cbn; eauto|reflexivity].
      - unfold v_at. rewrite (rep_size _ _ R). unfold spec_get. destruct (0 <=? n) eqn:E1; [|reflexivity].
        destruct (n <? Z.of_nat (length l)) eqn:E2.
        + unfold v_occupied. rewrite (rep_cap _ _ R), E1. rewrite (proj2 (Z.ltb_lt _ _)) by lia. cbn [andb].
          rewrite (r_occ _ _ _ R) by lia. rewrite bool_decide_eq_true_2 by lia. cbn [obind].
          rewrite (index_rep _ _ _ R Hle). unfold spec_get. rewrite E1. destruct (l !! Z.to_nat n); [cbn; eauto|reflexivity].
        + rewrite lookup_ge_None_2 by lia. reflexivity.
      - unfold v_front. rewrite (index_rep _ _ _ R Hle). unfold spec_get. rewrite head_lookup. change (0 <=? 0) with true. change (Z.to_nat 0) with 0%nat. destruct (l !! 0%nat); [cbn; eauto|reflexivity].
      - unfold v_back. rewrite (rep_size _ _ R), (index_rep _ _ _ R Hle). unfold spec_get. destruct l as [|y l _] using rev_ind.
        + reflexivity.
        + rewrite last_snoc, app_length. cbn [length]. rewrite (proj2 (Z.leb_le _ _)) by lia.
          replace (Z.to_nat (Z.of_nat (length l + 1) - 1)) with (length l) by lia.
          rewrite lookup_app_r by lia. rewrite Nat.sub_diag. cbn. eauto.
      - unfold v_range. rewrite (rep_size _ _ R), Nat2Z.id. rewrite mapM_rep; [cbn; eauto|rewrite (r_ld _ _ _ R); exact Hle|].
        intros p Hp. apply (r_data _ _ _ R). lia.
      - rewrite (rep_valid _ _ R). eauto.
    Qed.

    Lemma run_rep ops : forall v l, vrep cap v l -> (forall op, op ∈ ops -> op_fits (Z.of_nat cap) op) ->
      match spec_vrun (Z.of_nat cap) l ops with
      | Ret (l', rs) => exists v', vec_run opt ord v ops = Ret (v', rs) /\ vrep cap v' l'
      | UB => vec_run opt ord v ops = UB
      | Hang => False
      end.
    Proof.
      induction ops as [|op ops IH]; intros v l R Hfit; [cbn; eauto|]. cbn [spec_vrun vec_run].
      pose proof (step_rep v l op R (Hfit op ltac:(left))) as Hs. destruct (spec_vstep (Z.of_nat cap) l op) as [[l1 r]| |]; [|rewrite Hs; reflexivity|contradiction].
      destruct Hs as (v1 & E1 & R1). rewrite E1. cbn [obind]. specialize (IH v1 l1 R1 (fun o Ho => Hfit o (elem_of_list_further _ _ _ Ho))).
      destruct (spec_vrun (Z.of_nat cap) l1 ops) as [[l2 rs]| |]; cbn [obind]; [|rewrite IH; reflexivity|contradiction].
      destruct IH as (v2 & E2 & R2). rewrite E2. cbn. eauto.
    Qed.
  End rep.
End seq.

(** ** statements used by VectorProps.v *)
Lemma vec_refines {T} opt ord (Hord : forall n, ord n ≡ₚ seq 0 n) cap (ops : list (vop T)) : 0 < cap <= INT_MAX ->
  (forall op, op ∈ ops -> op_fits cap op) ->
  exists v0, vec_create cap = Ret v0 /\
  match spec_vrun cap [] ops with
  | Ret (l, rs) => exists v, vec_run opt ord v0 ops = Ret (v, rs) /\ v_valid v = true /\ v_range v = Ret l
  | UB => vec_run opt ord v0 ops = UB
  | Hang => False
  end.
Proof.
  intros Hcap Hfit. rewrite <- (Z2Nat.id cap) in * by lia. set (n := Z.to_nat cap) in *.
  destruct (rep_create (T:=T) opt ord Hord n Hcap ltac:(lia)) as (v0 & E0 & R0). exists v0. split; [exact E0|].
  pose proof (run_rep opt ord Hord n Hcap ops v0 [] R0 Hfit) as H. destruct (spec_vrun (Z.of_nat n) [] ops) as [[l rs]| |]; auto.
  destruct H as (v & E & R). exists v. split; [exact E|]. split; [exact (rep_valid opt ord Hord n Hcap _ _ R)|].
  unfold v_range. rewrite (rep_size _ ord Hord _ _ _ R), Nat2Z.id. rewrite (mapM_rep ord Hord n l); [reflexivity|rewrite (r_ld _ _ _ _ R); apply R|].
  intros p Hp. apply (r_data _ _ _ _ R). pose proof (r_le _ _ _ _ R). lia.
Qed.

Lemma vec_lifetimes {T} ord (Hord : forall n, ord n ≡ₚ seq 0 n) cap (ops : list (vop T)) v0 v rs : 0 < cap <= INT_MAX ->
  (forall op, op ∈ ops -> op_fits cap op) -> vec_create cap = Ret v0 -> vec_run false ord v0 ops = Ret (v, rs) ->
  lifetime_ok nothing (slot_events (v_ev v)) /\
  (forall p, live_after nothing (slot_events (v_ev v)) (InSlot p) = true <-> Z.of_nat p < v_size v) /\
  exists v', vec_destroy false ord v = Ret v' /\ lifetime_ok nothing (slot_events (v_ev v')) /\
    forall p, constructs (InSlot p) (slot_events (v_ev v')) = destroys (InSlot p) (slot_events (v_ev v')).
Proof.
  intros Hcap Hfit E0 Erun. rewrite <- (Z2Nat.id cap) in * by lia. set (n := Z.to_nat cap) in *.
  destruct (rep_create (T:=T) false ord Hord n Hcap ltac:(lia)) as (v0' & E0' & R0). rewrite E0 in E0'. injection E0' as <-.
  pose proof (run_rep false ord Hord n Hcap ops v0 [] R0 Hfit) as H. rewrite Erun in H.
  destruct (spec_vrun (Z.of_nat n) [] ops) as [[l rs']| |]; [|discriminate|contradiction].
  destruct H as (v1 & E1 & R). injection E1 as <- <-. destruct (r_life _ _ _ _ R eq_refl) as [L1 L2]. split; [exact L1|]. split.
  - intros p. rewrite L2, bool_decide_eq_true, (rep_size _ ord Hord _ _ _ R). lia.
  - cbn [vec_destroy]. destruct (clear_rep false ord Hord n Hcap v l R) as (v' & Ec & Rc). exists v'. split; [exact Ec|].
    destruct (r_life _ _ _ _ Rc eq_refl) as [L1' L2']. split; [exact L1'|]. intros p.
    pose proof (construct_destroy_balance _ nothing (InSlot p) L1') as Hb. rewrite L2', bool_decide_eq_false_2 in Hb by (cbn; lia). change (Z.b2z (nothing (InSlot p))) with 0 in Hb. change (Z.b2z false) with 0 in Hb. lia.
Qed.
