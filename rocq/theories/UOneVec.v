(** Any number of threads that pop and one thread that pushes on the vector of free entries: what the proofs of C67 need. *)
From Verif Require Import Base Conc SlotModel SlotSpec SlotProofs VectorModel VectorProofs VectorConcProofs UConcModel UConcProofs UConcEnd UEraseProofs UMixVec.

Local Arguments pushed_by : simpl never.
Local Arguments popped_by : simpl never.

Section many.
  Context (cap ie : nat).
  Notation vinv F := (inv (T:=Z) (C:=Z) cap vm (fun _ => True) (fun w => sumZ w (Z.of_nat <$> F))).
  Implicit Types (F : list nat) (x y : qshared Z Z) (q : qthread Z) (qs : list (qthread Z)).

  Definition vthread x (j : nat) q : Prop := q = fresh_call [] \/ popping q \/ (j = ie /\ (exists p, pushing_of p q) /\ written x q).

  Lemma vec_enter F x qs i prog : vinv F x qs -> qs !! i = Some (fresh_call []) -> (forall op, op ∈ prog -> op_wf op) -> vinv F x (<[i := fresh_call prog]> qs).
  Proof.
    intros I Hi Hp. pose proof (inv_reset cap _ _ _ i (fresh_call []) prog I Hi eq_refl Hp) as J. eapply inv_ext; [|exact J].
    intros w. cbn beta. change (pushed_by (q_log (fresh_call []))) with (@nil Z). change (popped_by (q_log (fresh_call []))) with (@nil Z). cbn [sumZ]. lia.
  Qed.
  Lemma written_other x y qs F i j q q' qj : vinv F x qs -> qs !! i = Some q -> qs !! j = Some qj -> i <> j -> qstep (vctl cap) i x q = Some (y, q') -> written x qj -> written y qj.
  Proof.
    intros I Hi Hj Hne Hst Hw. unfold written in *. assert (Ht : tok cap qj) by (apply (i_tok _ _ _ _ _ _ I); eapply elem_of_list_lookup_2; exact Hj). destruct Ht as [_ Ht].
    assert (Hx : forall s, (s < cap)%nat -> incs s qj = 1 -> lkd (q_data y) s = lkd (q_data x) s).
    { intros s Hs H1. eapply qstep_data; [exact Hst|]. pose proof (excl cap vm (fun _ => True) _ _ _ i j q qj s I Hs Hne Hi Hj). pose proof (incs_nonneg s q). lia. }
    destruct (q_pc qj) as [| | | |s|s| | | |s [r|]] eqn:Epb; try exact Logic.I.
    - rewrite Hx; [exact Hw|apply Ht|]. unfold incs. rewrite Epb. apply at_same.
    - rewrite Hx; [exact Hw|apply Ht|]. unfold incs. rewrite Epb. apply at_same.
  Qed.
  Lemma vec_pop_many F x qs i q y q' : vinv F x qs -> (forall j qj, qs !! j = Some qj -> vthread x j qj) -> qs !! i = Some q -> popping q -> qstep (vctl cap) i x q = Some (y, q') ->
    (popping q' /\ vinv F y (<[i := q']> qs)) \/
    (q_prog q' = [] /\ (forall z, last (q_log q') <> Some (Popped z)) /\ vinv F y (<[i := fresh_call []]> qs)) \/
    (exists p F', q_prog q' = [] /\ last (q_log q') = Some (Popped (Z.of_nat p)) /\ F ≡ₚ p :: F' /\ vinv F' y (<[i := fresh_call []]> qs)).
  Proof.
    intros I Hall Hi [Ep El] Hst. assert (Hin : q ∈ qs) by (eapply elem_of_list_lookup_2; exact Hi).
    pose proof (i_tok _ _ _ _ _ _ I q Hin) as Htok. assert (Hlt : (i < length qs)%nat) by (eapply lookup_lt_Some; exact Hi).
    pose proof (step_inv (vctl cap) cap vm (fun _ => True) (vctl_ok cap) _ _ _ _ _ _ _ I Hi Hst) as J.
    destruct (qstep_pop cap _ _ _ _ _ _ _ Htok Ep El Hst) as [[Ep' El']|(Ep' & Epc' & r & El' & Hr)]; [left; split; [split; assumption|exact J]|right].
    assert (Hqi : <[i:=q']> qs !! i = Some q') by (apply list_lookup_insert; exact Hlt).
    pose proof (inv_reset cap _ _ _ i q' [] J Hqi Epc' ltac:(intros op Ho; inversion Ho)) as J'. rewrite list_insert_insert in J'. rewrite El'. cbn [last].
    destruct r as [z|z| |].
    - exfalso. eapply Hr. reflexivity.
    - right. assert (Hz : z ∈ Z.of_nat <$> F).
      { destruct (decide (z ∈ Z.of_nat <$> F)) as [|Hn]; [assumption|exfalso]. set (w := fun c : Z => if decide (c = z) then 1 else 0). assert (Hwn : forall c, 0 <= w c) by (intros c; unfold w; case_decide; lia). assert (Hwz : w z = 1) by (unfold w; rewrite decide_True by reflexivity; reflexivity).
        pose proof (i_cons _ _ _ _ _ _ J w) as HC. cbn beta in HC.
        assert (H0 : sumZ w (Z.of_nat <$> F) = 0). { apply sumZ_zero. intros c Hc. unfold w. case_decide; [subst; contradiction|reflexivity]. }
        assert (H5 : wpop w q' = 1). { unfold wpop, pop_in_flight. rewrite El', Epc'. change (popped_by [Popped z]) with [z]. cbn [app sumZ]. lia. }
        assert (H4 : forall a : qthread Z, 0 <= wpop w a). { intros a. apply sumZ_nonneg. intros c _. apply Hwn. }
        pose proof (sumZ_ge_elem (wpop w) _ _ _ (fun l _ => H4 l) Hqi) as H6.
        assert (H7 : 0 <= sumZ (wd w) (q_data y)). { apply sumZ_nonneg. intros [c|] _; cbn; [apply Hwn|lia]. }
        (* what the running push has written is still in its slot *)
        assert (H3 : wpush w q' = 0). { unfold wpush, push_in_flight. rewrite El', Ep', Epc'. reflexivity. }
        assert (Hone : forall j qj, <[i:=q']> qs !! j = Some qj -> j <> ie -> wpush w qj = 0).
        { intros j qj Hj Hne. destruct (decide (i = j)) as [<- |Hij]; [rewrite Hqi in Hj; injection Hj as <-; exact H3|]. rewrite list_lookup_insert_ne in Hj by exact Hij.
          destruct (Hall j qj Hj) as [-> |[Hp|(-> & _)]]; [apply wpush_fresh| |congruence]. apply (wpush_popping cap); [|right; exact Hp]. apply (i_tok _ _ _ _ _ _ I). eapply elem_of_list_lookup_2; exact Hj. }
        assert (H8 : sumZ (wpush w) (<[i:=q']> qs) <= sumZ (wd w) (q_data y)).
        { rewrite sumZ_lookup. set (ls1 := <[i:=q']> qs) in *.
          assert (HS : sumZ (fun j => match ls1 !! j with Some a => wpush w a | None => 0 end) (seq 0 (length ls1)) = match ls1 !! ie with Some a => wpush w a | None => 0 end).
          { destruct (ls1 !! ie) as [qe|] eqn:Hie.
            - rewrite (sumZ_ext _ (fun j => if decide (j = ie) then wpush w qe else 0)).
              + apply sumZ_single. eapply lookup_lt_Some; exact Hie.
              + intros j _. case_decide as Hd; [subst j; rewrite Hie; reflexivity|]. destruct (ls1 !! j) as [a|] eqn:Ha; [eapply Hone; eauto|reflexivity].
            - apply sumZ_zero. intros j _. destruct (ls1 !! j) as [a|] eqn:Ha; [|reflexivity]. eapply Hone; [exact Ha|]. intros ->. congruence. }
          rewrite HS. destruct (ls1 !! ie) as [qe|] eqn:Hie; [|exact H7].
          destruct (decide (i = ie)) as [Hii|Hii]; [rewrite <- Hii, Hqi in Hie; injection Hie as <-; lia|].
          unfold ls1 in Hie. rewrite list_lookup_insert_ne in Hie by exact Hii.
          assert (Hqe : tok cap qe) by (apply (i_tok _ _ _ _ _ _ I); eapply elem_of_list_lookup_2; exact Hie).
          destruct (Hall ie qe Hie) as [-> |[Hp|(_ & (p & Eb & Elb) & Hw)]]; [rewrite wpush_fresh; exact H7|rewrite (wpush_popping cap w qe Hqe (or_intror Hp)); exact H7|].
          pose proof (written_other _ _ _ _ _ _ _ _ _ I Hi Hie Hii Hst Hw) as Hw'.
          unfold wpush, push_in_flight. rewrite Eb, Elb. change (pushed_by (T:=Z) []) with (@nil Z). cbn [app].
          destruct (i_len _ _ _ _ _ _ J) as (D1 & _). destruct Hqe as [_ Htb2]. unfold written in Hw'.
          assert (Hd : forall s, (s < cap)%nat -> lkd (q_data y) s = Some (Z.of_nat p) -> w (Z.of_nat p) + 0 <= sumZ (wd w) (q_data y)).
          { intros s Hs Hd. assert (Hls : q_data y !! s = Some (Some (Z.of_nat p))) by (rewrite lkd_Some by lia; rewrite Hd; reflexivity).
            pose proof (sumZ_ge_elem (wd w) (q_data y) s _ ltac:(intros [c|] _; cbn; [apply Hwn|lia]) Hls) as H. cbn in H. lia. }
          destruct (q_pc qe) as [| | | |s|s| | | |s [[z'|z'| |]|]] eqn:Epb; cbn [sumZ]; try exact H7.
          - rewrite Eb in Hw'. apply (Hd s); [apply Htb2|exact Hw'].
          - destruct Htb2 as (Hs & _ & k & rest & E0). rewrite E0 in Hw'. rewrite Eb in E0. injection E0 as _ <- _. apply (Hd s); [exact Hs|exact Hw']. }
        lia. }
      apply elem_of_list_fmap in Hz as (p & -> & Hp). apply elem_of_Permutation in Hp as [F' HF]. exists p, F'. split; [exact Ep'|]. split; [reflexivity|]. split; [exact HF|].
      eapply inv_ext; [|exact J']. intros w. cbn beta. rewrite El'. change (popped_by [Popped (Z.of_nat p)]) with [Z.of_nat p]. change (pushed_by [Popped (Z.of_nat p)]) with (@nil Z). rewrite (perm_sum _ _ w (fmap_Permutation Z.of_nat _ _ HF)). cbn. lia.
    - left. split; [exact Ep'|]. split; [discriminate|]. eapply inv_ext; [|exact J']. intros w. cbn beta. rewrite El'. unfold popped_by, pushed_by; cbn; lia.
    - left. split; [exact Ep'|]. split; [discriminate|]. eapply inv_ext; [|exact J']. intros w. cbn beta. rewrite El'. unfold popped_by, pushed_by; cbn; lia.
  Qed.
  Lemma vec_push_many F x qs i q p y q' : vinv F x qs -> qs !! i = Some q -> pushing_of p q -> written x q -> qstep (vctl cap) i x q = Some (y, q') ->
    (pushing_of p q' /\ written y q' /\ vinv F y (<[i := q']> qs)) \/
    (q_prog q' = [] /\ (vinv (p :: F) y (<[i := fresh_call []]> qs) \/ vinv F y (<[i := fresh_call []]> qs))).
  Proof.
    intros I Hi [Ep El] Hw Hst. assert (Hin : q ∈ qs) by (eapply elem_of_list_lookup_2; exact Hi).
    pose proof (i_tok _ _ _ _ _ _ I q Hin) as [_ Htok]. assert (Hlt : (i < length qs)%nat) by (eapply lookup_lt_Some; exact Hi).
    pose proof (step_inv (vctl cap) cap vm (fun _ => True) (vctl_ok cap) _ _ _ _ _ _ _ I Hi Hst) as J.
    assert (HL : (pushing_of p q' /\ written y q') \/ (q_prog q' = [] /\ q_pc q' = QIdle /\ (q_log q' = [Pushed (Z.of_nat p)] \/ q_log q' = [Refused] \/ q_log q' = [OutOfBounds]))).
    { pose proof (i_len _ _ _ _ _ _ I) as (D1 & _). unfold written in *. unfold pushing_of. rewrite Ep in Hw. unfold qstep in Hst. rewrite Ep in Hst.
      assert (HS : forall pc, match pc with QSet _ | QUnlock _ (Some _) => False | _ => True end -> forall x0 : qshared Z Z, (q_prog (goto q pc) = [QPush KPushBack (Z.of_nat p)] /\ q_log (goto q pc) = []) /\
        match q_pc (goto q pc) with QSet s | QUnlock s (Some _) => lkd (q_data x0) s = match q_prog (goto q pc) with QPush _ z :: _ => Some z | _ => None end | _ => True end).
      { intros pc Hpc x0. cbn [goto q_prog q_log q_pc]. split; [split; assumption|]. destruct pc as [| | | | | | | | |s0 [r0|]]; try contradiction; exact Logic.I. }
      assert (Hno : SlotProofs.pushing q = false -> False) by (unfold SlotProofs.pushing; rewrite Ep; discriminate).
      destruct (q_pc q) as [|m|s|s|s|s|s|s|s z|s r] eqn:Epc.
      - injection Hst as <- <-. left. apply HS. exact Logic.I.
      - destruct (vctl cap (q_c x) _ m) as [c m'| |c|c s]; injection Hst as <- <-; [left; apply HS; exact Logic.I|right; cbn; rewrite Ep, El; auto|right; cbn; rewrite Ep, El; auto|left; apply HS; exact Logic.I].
      - destruct (q_locks x !! s) as [[]|]; try discriminate; injection Hst as <- <-; left; [|apply HS; exact Logic.I]. rewrite Epc. auto.
      - destruct (q_occ x !! s) as [o|]; try discriminate; injection Hst as <- <-; left; apply HS. destruct o; exact Logic.I.
      - injection Hst as <- <-. left. cbn [goto q_prog q_log q_pc with_data q_data]. rewrite Ep. split; [auto|]. unfold lkd. rewrite list_lookup_insert by lia. reflexivity.
      - injection Hst as <- <-. left. cbn [goto q_prog q_log q_pc with_occ q_data]. rewrite Ep. split; [auto|]. exact Hw.
      - exfalso. apply Hno. apply Htok.
      - exfalso. apply Hno. apply Htok.
      - exfalso. apply Hno. apply Htok.
      - destruct r as [r|]; injection Hst as <- <-; [right|left; apply HS; exact Logic.I]. cbn [finish q_prog q_pc q_log]. rewrite Ep, El. split; [reflexivity|]. split; [reflexivity|].
        destruct Htok as (_ & _ & Htok). destruct r as [z|z| |]; [|exfalso; auto|contradiction..]. destruct Htok as (k & rest & E0). rewrite Ep in E0. injection E0 as _ <- _. left. reflexivity. }
    destruct HL as [[H1 H2]|(Ep' & Epc' & Hl)]; [left; auto|right; split; [exact Ep'|]].
    assert (Hqi : <[i:=q']> qs !! i = Some q') by (apply list_lookup_insert; exact Hlt).
    pose proof (inv_reset cap _ _ _ i q' [] J Hqi Epc' ltac:(intros op Ho; inversion Ho)) as J'. rewrite list_insert_insert in J'.
    destruct Hl as [El'|[El'|El']]; [left|right|right]; (eapply inv_ext; [|exact J']); intros w; cbn beta; rewrite El'; unfold popped_by, pushed_by; cbn; lia.
  Qed.
End many.
