(** Any number of threads that pop and push on the vector of free entries: what the proofs of C79 need. *)
From Verif Require Import Base Conc SlotModel SlotSpec SlotProofs VectorModel VectorProofs VectorConcProofs UConcModel UConcProofs UConcEnd UConcFinal UEraseProofs UMixVec UOneVec.

Local Arguments pushed_by : simpl never.
Local Arguments popped_by : simpl never.

Section any.
  Context (cap : nat).
  Notation vinv F := (inv (T:=Z) (C:=Z) cap vm (fun _ => True) (fun w => sumZ w (Z.of_nat <$> F))).
  Implicit Types (F : list nat) (x y : qshared Z Z) (q : qthread Z) (qs : list (qthread Z)).
  Definition vany x q : Prop := q = fresh_call [] \/ popping q \/ ((exists p, pushing_of p q) /\ written x q).

  (** what running pushes have written is still in their slots *)
  Lemma in_slots F y qs (w : Z -> Z) : vinv F y qs -> (forall c, 0 <= w c) -> (forall q, q ∈ qs -> vany y q \/ wpush w q = 0) -> sumZ (wpush w) qs <= sumZ (wd w) (q_data y).
  Proof.
    intros I Hwn Hall. destruct (i_len _ _ _ _ _ _ I) as (D1 & _ & _).
    assert (Hpos : forall q, q ∈ qs -> 0 < wpush w q -> exists s, (s < cap)%nat /\ incs s q = 1 /\ wpush w q <= wd w (lkd (q_data y) s)).
    { intros q Hq Hp. destruct (Hall q Hq) as [[-> |[Hpp|((p & Eb & Elb) & Hw)]]|Hz]; [rewrite wpush_fresh in Hp; lia| | |lia].
      - rewrite (wpush_popping cap w q) in Hp; [lia| |right; exact Hpp]. apply (i_tok _ _ _ _ _ _ I). exact Hq.
      - pose proof (i_tok _ _ _ _ _ _ I q Hq) as [_ Htb2]. unfold written in Hw. unfold wpush, push_in_flight in Hp |- *. rewrite Eb, Elb in Hp |- *. change (pushed_by (T:=Z) []) with (@nil Z) in *. cbn [app] in Hp |- *.
        destruct (q_pc q) as [| | | |s|s| | | |s [[z'|z'| |]|]] eqn:Epb; cbn [sumZ] in Hp |- *; try lia.
        + exists s. split; [apply Htb2|]. split; [unfold incs; rewrite Epb; apply at_same|]. rewrite Eb in Hw. rewrite Hw. cbn. lia.
        + destruct Htb2 as (Hs & _ & k & rest & E0). exists s. split; [exact Hs|]. split; [unfold incs; rewrite Epb; apply at_same|]. rewrite Eb in Hw. rewrite Hw. cbn. rewrite Eb in E0. injection E0 as _ <- _. lia. }
    transitivity (sumZ (fun q => sumZ (fun s => incs s q * wd w (lkd (q_data y) s)) (seq 0 cap)) qs).
    - apply sumZ_le. intros q Hq. assert (Hterm : forall s, s ∈ seq 0 cap -> 0 <= incs s q * wd w (lkd (q_data y) s)). { intros s _. pose proof (incs_nonneg s q). destruct (lkd (q_data y) s) as [c|]; cbn; [pose proof (Hwn c); nia|lia]. }
      destruct (Z.le_gt_cases (wpush w q) 0) as [Hle|Hgt]; [etransitivity; [exact Hle|]; apply sumZ_nonneg; exact Hterm|].
      destruct (Hpos q Hq Hgt) as (s & Hs & Hi & Hle). pose proof (sumZ_ge_elem (fun s => incs s q * wd w (lkd (q_data y) s)) (seq 0 cap) s s Hterm ltac:(apply lookup_seq_lt; exact Hs)) as H. cbn beta in H. rewrite Hi in H. lia.
    - rewrite sumZ_swap. rewrite (sumZ_lookup (wd w) (q_data y)), D1. apply sumZ_le. intros s Hs. apply elem_of_seq in Hs.
      assert (Hl : q_data y !! s = Some (lkd (q_data y) s)) by (apply lkd_Some; lia). rewrite Hl.
      assert (Hd : 0 <= wd w (lkd (q_data y) s)) by (destruct (lkd (q_data y) s); cbn; [apply Hwn|lia]).
      assert (Es : sumZ (fun q => incs s q * wd w (lkd (q_data y) s)) qs = sumZ (incs s) qs * wd w (lkd (q_data y) s)). { clear. induction qs as [|q l IH]; cbn; [lia|]. rewrite IH. lia. }
      rewrite Es, <- (i_lock _ _ _ _ _ _ I s) by lia. destruct (lk (q_locks y) s); cbn; lia.
  Qed.
  Lemma vec_pop_any F x qs i q y q' : vinv F x qs -> (forall qj, qj ∈ qs -> vany x qj) -> qs !! i = Some q -> popping q -> qstep (vctl cap) i x q = Some (y, q') ->
    (popping q' /\ vinv F y (<[i := q']> qs)) \/
    (q_prog q' = [] /\ (forall z, last (q_log q') <> Some (Popped z)) /\ vinv F y (<[i := fresh_call []]> qs)) \/
    (exists p F', q_prog q' = [] /\ last (q_log q') = Some (Popped (Z.of_nat p)) /\ F ≡ₚ p :: F' /\ vinv F' y (<[i := fresh_call []]> qs)).
  Proof.
    intros I Hall Hi [Ep El] Hst. assert (Hin : q ∈ qs) by (eapply elem_of_list_lookup_2; exact Hi).
    pose proof (i_tok _ _ _ _ _ _ I q Hin) as Htok. assert (Hlt : (i < length qs)%nat) by (eapply lookup_lt_Some; exact Hi).
    pose proof (step_inv (vctl cap) cap vm (fun _ => True) (vctl_ok cap) _ _ _ _ _ _ _ I Hi Hst) as J.
    destruct (qstep_pop cap _ _ _ _ _ _ _ Htok Ep El Hst) as [[Ep' El']|(Ep' & Epc' & r & El' & Hr)]; [left; split; [split; assumption|exact J]|right].
    assert (Hqi : <[i:=q']> qs !! i = Some q') by (apply list_lookup_insert; exact Hlt).
    pose proof (inv_reset cap _ _ _ i q' [] J Hqi Epc' ltac:(intros op Ho; inversion Ho)) as J'. rewrite list_insert_insert in J'. rewrite El'. cbn [last].
    destruct r as [z|z| |].
    - exfalso. eapply Hr. reflexivity.
    - right. assert (Hz : z ∈ Z.of_nat <$> F).
      { destruct (decide (z ∈ Z.of_nat <$> F)) as [|Hn]; [assumption|exfalso]. set (w := fun c : Z => if decide (c = z) then 1 else 0). assert (Hwn : forall c, 0 <= w c) by (intros c; unfold w; case_decide; lia). assert (Hwz : w z = 1) by (unfold w; rewrite decide_True by reflexivity; reflexivity).
        pose proof (i_cons _ _ _ _ _ _ J w) as HC. cbn beta in HC.
        assert (H0 : sumZ w (Z.of_nat <$> F) = 0). { apply sumZ_zero. intros c Hc. unfold w. case_decide; [subst; contradiction|reflexivity]. }
        assert (H5 : wpop w q' = 1). { unfold wpop, pop_in_flight. rewrite El', Epc'. change (popped_by [Popped z]) with [z]. cbn [app sumZ]. lia. }
        assert (H4 : forall a : qthread Z, 0 <= wpop w a). { intros a. apply sumZ_nonneg. intros c _. apply Hwn. }
        pose proof (sumZ_ge_elem (wpop w) _ _ _ (fun l _ => H4 l) Hqi) as H6.
        assert (H3 : wpush w q' = 0). { unfold wpush, push_in_flight. rewrite El', Ep', Epc'. reflexivity. }
        assert (H8 : sumZ (wpush w) (<[i:=q']> qs) <= sumZ (wd w) (q_data y)).
        { apply (in_slots F y _ w J Hwn). intros qj Hj. apply elem_of_list_lookup in Hj as [j Hj]. destruct (decide (i = j)) as [<- |Hij]; [rewrite Hqi in Hj; injection Hj as <-; right; exact H3|]. rewrite list_lookup_insert_ne in Hj by exact Hij. left.
          destruct (Hall qj (elem_of_list_lookup_2 _ _ _ Hj)) as [?|[?|[Hp Hw]]]; [left; assumption|right; left; assumption|]. right. right. split; [exact Hp|]. exact (written_other cap _ _ _ _ _ _ _ _ _ I Hi Hj Hij Hst Hw). }
        lia. }
      apply elem_of_list_fmap in Hz as (p & -> & Hp). apply elem_of_Permutation in Hp as [F' HF]. exists p, F'. split; [exact Ep'|]. split; [reflexivity|]. split; [exact HF|].
      eapply inv_ext; [|exact J']. intros w. cbn beta. rewrite El'. change (popped_by [Popped (Z.of_nat p)]) with [Z.of_nat p]. change (pushed_by [Popped (Z.of_nat p)]) with (@nil Z). rewrite (perm_sum _ _ w (fmap_Permutation Z.of_nat _ _ HF)). cbn. lia.
    - left. split; [exact Ep'|]. split; [discriminate|]. eapply inv_ext; [|exact J']. intros w. cbn beta. rewrite El'. unfold popped_by, pushed_by; cbn; lia.
    - left. split; [exact Ep'|]. split; [discriminate|]. eapply inv_ext; [|exact J']. intros w. cbn beta. rewrite El'. unfold popped_by, pushed_by; cbn; lia.
  Qed.
End any.
