(** One thread that pops and one thread that pushes on the vector of free entries: what the proofs of C68 need. *)
From Verif Require Import Base Conc SlotModel SlotSpec SlotProofs VectorModel VectorProofs VectorConcProofs UConcModel UConcProofs UEraseProofs.

Local Arguments pushed_by : simpl never.
Local Arguments popped_by : simpl never.

Section pair.
  Context (cap : nat).
  Notation vinv F := (inv (T:=Z) (C:=Z) cap vm (fun _ => True) (fun w => sumZ w (Z.of_nat <$> F))).
  Implicit Types (F : list nat) (x y : qshared Z Z) (a b q : qthread Z).

  Definition popping a : Prop := q_prog a = [QPop KPopBack] /\ q_log a = [].
  Definition pushing_of (p : nat) b : Prop := q_prog b = [QPush KPushBack (Z.of_nat p)] /\ q_log b = [].
  (** the element a push has written is in its slot until the call returns *)
  Definition written x b : Prop :=
    match q_pc b with
    | QSet s | QUnlock s (Some _) => lkd (q_data x) s = match q_prog b with QPush _ z :: _ => Some z | _ => None end
    | _ => True
    end.
  Record pair F x a b : Prop := {
    p_inv : vinv F x [a; b];
    p_size : q_c x = Z.of_nat (length F) + bal a + bal b;
    p_pop : a = fresh_call [] \/ popping a;
    p_push : b = fresh_call [] \/ exists p, pushing_of p b;
    p_written : written x b
  }.

  Lemma bal_pop a : popping a -> bal a = if claimed a then -1 else 0.
  Proof. intros [Ep El]. unfold bal, SlotProofs.pushing. rewrite Ep, El. change (pushed_by (T:=Z) []) with (@nil Z). change (popped_by (T:=Z) []) with (@nil Z). cbn. destruct (claimed a); reflexivity. Qed.
  Lemma pair_start F x : vinv F x [fresh_call []; fresh_call []] -> q_c x = Z.of_nat (length F) -> pair F x (fresh_call []) (fresh_call []).
  Proof. intros I Hc. split; auto; [rewrite bal_fresh; lia|exact Logic.I]. Qed.
  Lemma pair_enter_pop F x b : pair F x (fresh_call []) b -> pair F x pop_call b.
  Proof.
    intros I. split; [|rewrite (p_size _ _ _ _ I), bal_fresh, (bal_pop pop_call) by (split; reflexivity); reflexivity|right; split; reflexivity|apply I|apply I].
    pose proof (inv_reset cap _ _ _ 0%nat (fresh_call []) [QPop KPopBack] (p_inv _ _ _ _ I) eq_refl eq_refl ltac:(intros o Ho; apply elem_of_list_singleton in Ho as ->; reflexivity)) as J.
    eapply inv_ext; [|exact J]. intros w. cbn beta. change (pushed_by (q_log (fresh_call []))) with (@nil Z). change (popped_by (q_log (fresh_call []))) with (@nil Z). cbn [sumZ]. lia.
  Qed.
  Lemma pair_enter_push F x a p : pair F x a (fresh_call []) -> pair F x a (push_call p).
  Proof.
    intros I. split; [|rewrite (p_size _ _ _ _ I), bal_fresh, (bal_push (push_call p) p eq_refl eq_refl); reflexivity|apply I|right; exists p; split; reflexivity|exact Logic.I].
    pose proof (inv_reset cap _ _ _ 1%nat (fresh_call []) [QPush KPushBack (Z.of_nat p)] (p_inv _ _ _ _ I) eq_refl eq_refl ltac:(intros o Ho; apply elem_of_list_singleton in Ho as ->; reflexivity)) as J.
    eapply inv_ext; [|exact J]. intros w. cbn beta. change (pushed_by (q_log (fresh_call []))) with (@nil Z). change (popped_by (q_log (fresh_call []))) with (@nil Z). cbn [sumZ]. lia.
  Qed.

  Lemma wpush_popping w a : tok cap a -> a = fresh_call [] \/ popping a -> wpush w a = 0.
  Proof.
    intros [_ Hok] [-> |[Ep El]]; [apply wpush_fresh|]. unfold wpush, push_in_flight. rewrite Ep, El.
    destruct (q_pc a) as [| | | | | | | | |p0 [[]|]]; try reflexivity. destruct Hok as (_ & _ & k' & rest & E0). rewrite Ep in E0. discriminate.
  Qed.
  Lemma wpop_pushing w b : tok cap b -> b = fresh_call [] \/ (exists p, pushing_of p b) -> wpop w b = 0.
  Proof.
    intros [_ Hok] [-> |(p & Ep & El)]; [reflexivity|]. unfold wpop, pop_in_flight. rewrite El.
    destruct (q_pc b) as [| | | | | | | | |p0 [[]|]]; try reflexivity. destruct Hok as (_ & _ & Hok). unfold SlotProofs.pushing in Hok. rewrite Ep in Hok. discriminate.
  Qed.

  (** the data of the vector changes in the slot whose lock the thread holds only *)
  Lemma qstep_data (ctl : Z -> qkind -> nat -> cres Z) tid x q y q' s : qstep ctl tid x q = Some (y, q') -> incs s q = 0 -> lkd (q_data y) s = lkd (q_data x) s.
  Proof.
    intros H Hs. unfold qstep in H. destruct (q_prog q) as [|op rest]; [discriminate|]. unfold incs in Hs.
    assert (Hne : forall p (d : option Z), at_ s p = 0 -> lkd (<[p := d]> (q_data x)) s = lkd (q_data x) s).
    { intros p d Hp. unfold lkd. rewrite list_lookup_insert_ne; [reflexivity|]. intros ->. unfold at_ in Hp. rewrite decide_True in Hp by reflexivity. discriminate. }
    destruct (q_pc q); repeat case_match; try discriminate; injection H as <- <-; try reflexivity; apply Hne; exact Hs.
  Qed.

  Lemma vec_pop F x a b tid y a' : pair F x a b -> popping a -> (claimed a = false -> 0 < q_c x) -> q_c x <= Z.of_nat cap -> qstep (vctl cap) tid x a = Some (y, a') ->
    (popping a' /\ (claimed a' = false -> 0 < q_c y) /\ pair F y a' b) \/
    exists p F', q_prog a' = [] /\ last (q_log a') = Some (Popped (Z.of_nat p)) /\ F ≡ₚ p :: F' /\ pair F' y (fresh_call []) b.
  Proof.
    intros I [Ep El] Hpos Hcap Hst. change (qstep (vctl cap) 0 x a = Some (y, a')) in Hst.
    pose proof (step_inv (vctl cap) cap vm (fun _ => True) (vctl_ok cap) _ _ _ _ _ _ _ (p_inv _ _ _ _ I) (eq_refl : [a; b] !! 0%nat = Some a) Hst) as J.
    change (<[0%nat:=a']> [a; b]) with [a'; b] in J.
    assert (Hta : tok cap a) by (apply (i_tok _ _ _ _ _ _ (p_inv _ _ _ _ I)); left).
    assert (Htb : tok cap b) by (apply (i_tok _ _ _ _ _ _ (p_inv _ _ _ _ I)); right; left).
    assert (HL : (popping a' /\ (claimed a' = false -> 0 < q_c y)) \/ (q_prog a' = [] /\ q_pc a' = QIdle /\ exists z, q_log a' = [Popped z])).
    { pose proof Hta as [_ Hok]. unfold qstep in Hst. rewrite Ep in Hst. destruct (q_pc a) as [|m|s|s|s|s|s|s|s z|s r] eqn:Epc.
      - injection Hst as <- <-. left. split; [split; [exact Ep|exact El]|]. intros _. apply Hpos. unfold claimed. rewrite Epc. reflexivity.
      - assert (Hcl : 0 < q_c x) by (apply Hpos; unfold claimed; rewrite Epc; reflexivity). cbn [kind_of] in Hst. unfold vctl in Hst. destruct m as [|m].
        + unfold clamp_size in Hst. rewrite (proj2 (Z.ltb_ge (q_c x) 0)) in Hst by lia. rewrite (proj2 (Z.ltb_ge (Z.of_nat cap) _)) in Hst by lia. rewrite (proj2 (Z.eqb_neq _ _)) in Hst by lia. injection Hst as <- <-. left. split; [split; [exact Ep|exact El]|]. intros _. exact Hcl.
        + rewrite (proj2 (Z.leb_le _ _)) in Hst by lia. rewrite (proj2 (Z.ltb_lt _ _)) in Hst by lia. cbn [andb] in Hst. injection Hst as <- <-. left. split; [split; [exact Ep|exact El]|]. discriminate.
      - destruct (q_locks x !! s) as [[]|]; try discriminate; injection Hst as <- <-; left; (split; [split; [exact Ep|exact El]|]); unfold claimed; cbn; rewrite ?Epc; discriminate.
      - destruct (q_occ x !! s) as [o|]; try discriminate; injection Hst as <- <-; left; (split; [split; [exact Ep|exact El]|]). unfold claimed; cbn. destruct o; discriminate.
      - discriminate.
      - discriminate.
      - injection Hst as <- <-; left; (split; [split; [exact Ep|exact El]|]); discriminate.
      - destruct (q_data x !! s) as [[z|]|]; try discriminate; injection Hst as <- <-; left; (split; [split; [exact Ep|exact El]|]); discriminate.
      - injection Hst as <- <-; left; (split; [split; [exact Ep|exact El]|]); discriminate.
      - destruct r as [r|]; injection Hst as <- <-; [|left; (split; [split; [exact Ep|exact El]|]); discriminate]. right. cbn. rewrite Ep, El. split; [reflexivity|]. split; [reflexivity|].
        destruct Hok as (_ & _ & Hok). destruct r as [z|z| |]; [destruct Hok as (k & rest & E0); rewrite Ep in E0; discriminate|eauto|contradiction..]. }
    assert (Hno : OutOfBounds ∉ q_log a').
    { destruct HL as [[[_ H0] _]|(_ & _ & z & H0)]; rewrite H0; [intros H; inversion H|]. intros H. apply elem_of_list_singleton in H. discriminate. }
    assert (Hvc : forall op, op ∈ q_prog a -> vector_call op) by (rewrite Ep; intros op H; apply elem_of_list_singleton in H as ->; exact Logic.I).
    destruct (bal_step cap [] (Nat.le_0_l cap) [] ltac:(intros ? ? H; inversion H) x 0%nat a y a' Hta Hvc Hst Hno) as (_ & Hb & _).
    assert (Hw : written y b).
    { pose proof (p_written _ _ _ _ I) as Hw. unfold written in *. pose proof Htb as [_ Htb2].
      assert (Hx : forall s, (s < cap)%nat -> incs s b = 1 -> lkd (q_data y) s = lkd (q_data x) s).
      { intros s Hs H1. eapply qstep_data; [exact Hst|]. pose proof (excl cap vm (fun _ => True) _ _ _ 0%nat 1%nat a b s (p_inv _ _ _ _ I) Hs ltac:(discriminate) eq_refl eq_refl). pose proof (incs_nonneg s a). lia. }
      destruct (q_pc b) as [| | | |s|s| | | |s [r|]] eqn:Epb; try exact Logic.I.
      - rewrite Hx; [exact Hw|apply Htb2|]. unfold incs. rewrite Epb. apply at_same.
      - rewrite Hx; [exact Hw|apply Htb2|]. unfold incs. rewrite Epb. apply at_same. }
    pose proof (p_size _ _ _ _ I) as Hsz.
    destruct HL as [[HP Hc]|(Ep' & Epc' & z & El')].
    - left. split; [exact HP|]. split; [exact Hc|]. split; [exact J|lia|right; exact HP|apply I|exact Hw].
    - right. assert (Hz : z ∈ Z.of_nat <$> F).
      { destruct (decide (z ∈ Z.of_nat <$> F)) as [|Hn]; [assumption|exfalso]. set (w := fun c : Z => if decide (c = z) then 1 else 0). assert (Hwn : forall c, 0 <= w c) by (intros c; unfold w; case_decide; lia). assert (Hwz : w z = 1) by (unfold w; rewrite decide_True by reflexivity; reflexivity).
        pose proof (i_cons _ _ _ _ _ _ J w) as HC. cbn beta in HC. cbn [sumZ] in HC.
        assert (H0 : sumZ w (Z.of_nat <$> F) = 0). { apply sumZ_zero. intros c Hc. unfold w. case_decide; [subst; contradiction|reflexivity]. }
        assert (H3 : wpush w a' = 0). { unfold wpush, push_in_flight. rewrite El', Ep', Epc'. reflexivity. }
        assert (H5 : wpop w a' = 1). { unfold wpop, pop_in_flight. rewrite El', Epc'. change (popped_by [Popped z]) with [z]. cbn [app sumZ]. lia. }
        assert (H4 : wpop w b = 0) by (apply wpop_pushing; [exact Htb|apply I]).
        assert (H7 : 0 <= sumZ (wd w) (q_data y)). { apply sumZ_nonneg. intros [c|] _; cbn; [apply Hwn|lia]. }
        assert (H8 : wpush w b <= sumZ (wd w) (q_data y)).
        { destruct (p_push _ _ _ _ I) as [-> |(p & Eb & Elb)]; [rewrite wpush_fresh; exact H7|]. unfold wpush, push_in_flight. rewrite Eb, Elb. change (pushed_by (T:=Z) []) with (@nil Z). cbn [app].
          destruct (i_len _ _ _ _ _ _ J) as (D1 & _). pose proof Htb as [_ Htb2]. unfold written in Hw.
          assert (Hd : forall s, (s < cap)%nat -> lkd (q_data y) s = Some (Z.of_nat p) -> w (Z.of_nat p) + 0 <= sumZ (wd w) (q_data y)).
          { intros s Hs Hd. assert (Hls : q_data y !! s = Some (Some (Z.of_nat p))) by (rewrite lkd_Some by lia; rewrite Hd; reflexivity).
            pose proof (sumZ_ge_elem (wd w) (q_data y) s _ ltac:(intros [c|] _; cbn; [apply Hwn|lia]) Hls) as H. cbn in H. lia. }
          destruct (q_pc b) as [| | | |s|s| | | |s [[z'|z'| |]|]] eqn:Epb; cbn [sumZ]; try exact H7.
          - rewrite Eb in Hw. apply (Hd s); [apply Htb2|exact Hw].
          - destruct Htb2 as (Hs & _ & k & rest & E0). rewrite E0 in Hw. rewrite Eb in E0. injection E0 as _ <- _. apply (Hd s); [exact Hs|exact Hw]. }
        lia. }
      apply elem_of_list_fmap in Hz as (p & -> & Hp). apply elem_of_Permutation in Hp as [F' HF]. exists p, F'. split; [exact Ep'|]. split; [rewrite El'; reflexivity|]. split; [exact HF|]. split.
      + pose proof (inv_reset cap _ _ _ 0%nat a' [] J eq_refl Epc' ltac:(intros op Ho; inversion Ho)) as J'. eapply inv_ext; [|exact J']. intros w. cbn beta. rewrite El'. change (popped_by [Popped (Z.of_nat p)]) with [Z.of_nat p]. change (pushed_by [Popped (Z.of_nat p)]) with (@nil Z).
        rewrite (perm_sum _ _ w (fmap_Permutation Z.of_nat _ _ HF)). cbn. lia.
      + rewrite bal_fresh. assert (Hba : bal a' = -1). { unfold bal, claimed. rewrite El', Epc'. reflexivity. } rewrite Hba in Hb. rewrite HF in Hsz. cbn [length] in Hsz. lia.
      + left. reflexivity.
      + apply I.
      + exact Hw.
  Qed.

  Lemma vec_push F x a b p tid y b' : pair F x a b -> pushing_of p b -> (claimed b = false -> 0 <= q_c x < Z.of_nat cap) -> qstep (vctl cap) tid x b = Some (y, b') ->
    q_c x <= q_c y /\
    ((pushing_of p b' /\ pair F y a b') \/ (q_prog b' = [] /\ pair (p :: F) y a (fresh_call []))).
  Proof.
    intros I [Ep El] Hc Hst. change (qstep (vctl cap) 1 x b = Some (y, b')) in Hst.
    assert (Htb : tok cap b) by (apply (i_tok _ _ _ _ _ _ (p_inv _ _ _ _ I)); right; left).
    pose proof (p_size _ _ _ _ I) as Hsz.
    destruct (push_step cap F x [a; b] 1%nat b p y b' (p_inv _ _ _ _ I) eq_refl Ep El Hc Hst) as [(E1 & E2 & J & Hb)|(E1 & J & Hb)].
    - change (<[1%nat:=b']> [a; b]) with [a; b'] in J. rewrite Ep in E1. split.
      + rewrite (bal_push b' p E1 E2), (bal_push b p Ep El) in Hb. assert (Hm : claimed b = true -> claimed b' = true); [|destruct (claimed b) eqn:C1, (claimed b') eqn:C2; try lia; discriminate (Hm eq_refl)].
        unfold claimed. unfold qstep in Hst. rewrite Ep in Hst. destruct (q_pc b) eqn:Epc; try discriminate; intros _; repeat match type of Hst with context[match ?z with _ => _ end] => destruct z end; try discriminate; injection Hst as <- <-; cbn in *; rewrite ?El, ?Ep, ?Epc in *; try discriminate; try reflexivity.
      + left. split; [split; assumption|]. split; [exact J|lia|apply I|right; exists p; split; assumption|].
        unfold written. rewrite E1. pose proof (i_len _ _ _ _ _ _ (p_inv _ _ _ _ I)) as (D1 & _). pose proof Htb as [_ Htb2]. pose proof (p_written _ _ _ _ I) as Hw. unfold written in Hw. rewrite Ep in Hw.
        unfold qstep in Hst. rewrite Ep in Hst. destruct (q_pc b) as [|m|s|s|s|s|s|s|s z|s r] eqn:Epc; repeat case_match; try discriminate; injection Hst as <- <-; cbn in *; rewrite ?El, ?Ep in *; try discriminate; try exact Logic.I; try congruence; try assumption.
        all: try (destruct Htb2 as (_ & _ & Htb2); unfold SlotProofs.pushing in Htb2; rewrite Ep in Htb2; discriminate).
        all: try (injection H as -> ->; unfold lkd; rewrite list_lookup_insert by lia; reflexivity).
        all: try (simplify_eq; unfold lkd; rewrite list_lookup_insert by lia; reflexivity).
    - change (<[1%nat:=fresh_call []]> [a; b]) with [a; fresh_call []] in J. rewrite (bal_push b p Ep El) in Hb, Hsz. split; [destruct (claimed b); lia|]. right. split; [exact E1|]. split; [exact J| |apply I|left; reflexivity|exact Logic.I].
      rewrite bal_fresh. cbn [length]. lia.
  Qed.
  Lemma vec_pop_nonneg F x a b tid y a' : pair F x a b -> popping a -> (claimed a = false -> 0 < q_c x) -> 0 <= q_c x -> qstep (vctl cap) tid x a = Some (y, a') -> 0 <= q_c y.
  Proof.
    intros I [Ep El] Hpos Hc Hst. unfold qstep in Hst. rewrite Ep in Hst. cbn [kind_of] in Hst. unfold vctl in Hst.
    destruct (q_pc a) as [|m|s|s|s|s|s|s|s z|s r] eqn:Epc; repeat case_match; try discriminate; injection Hst as <- <-; cbn [q_c]; try exact Hc.
    all: assert (Hq : 0 < q_c x) by (apply Hpos; unfold claimed; rewrite Epc; reflexivity); cbv zeta in *; repeat (case_match; try discriminate); simplify_eq; unfold with_c; cbn [q_c]; lia.
  Qed.
End pair.
