(** Kernels in which one thread erases and any number of threads insert: the steps that change a list (C67). *)
From Verif Require Import Base Conc SlotModel SlotSpec SlotProofs VectorModel VectorProofs VectorConcProofs UnorderedModel UnorderedSpec UnorderedProofs UConcModel UConcSpec UConcProofs UConcEnd UEraseModel UEraseProofs UMixVec UMixShape UOneVec UOneDefs UOneUpd UOneStep.
From Verif Require UMixKnow.

Section link.
  Context {K V : Type} (kf : V -> K) (hash : K -> Z) (keq : K -> K -> bool) (bc E : nat).
  Hypothesis HP : key_equality keq /\ hash_respects keq hash /\ sizes_ok bc E.
  Context (ie : nat) (M0 : list V).
  Notation n := (bc + E)%nat.
  Notation bkt := (bkt hash bc).
  Notation inC := (inC bc).
  Notation oinv := (oinv kf hash keq bc E ie M0).
  Notation heldt := (heldt kf hash bc).
  Notation thr := (thr kf hash keq bc E ie).
  Notation kn := (kn kf hash keq bc E).
  Notation stored := (stored bc E).
  Notation flat C := (C ≫= (fun l : list nat => l)).
  Implicit Types (s : cshared V) (t : cthread K V) (ls : list (cthread K V)) (C : list (list nat)) (F X : list nat) (R : list V) (op : cop K V).
  Local Notation HB := (mx_bkt hash keq bc E HP).
  Local Notation SL l := (l kf hash keq bc E HP ie M0) (only parsing).
  Local Notation FL l := (l kf hash keq bc E ie M0) (only parsing).

  Lemma flat_insert C c l : (c < length C)%nat -> flat (<[c := l]> C) ++ ch C c ≡ₚ l ++ flat C.
  Proof.
    intros Hc. destruct (lookup_lt_is_Some_2 C c Hc) as [l0 Hl]. destruct (bind_split (fun l => l) C c l0 Hl) as (rest & E1 & E2 & _). unfold ch. rewrite Hl. cbn [default]. rewrite E1, (E2 l). cbn. solve_Permutation.
  Qed.

  Section one_step.
    Context s ls C F X R i t op rest (I : oinv s ls C F X R) (Hi : ls !! i = Some t) (Ep : c_prog t = op :: rest).
    Notation b := (bkt (op_key kf op)).
    Lemma rtc_mono (r1 r2 : nat -> nat -> Prop) x y : (forall a c, r1 a c -> rtc r2 a c) -> rtc r1 x y -> rtc r2 x y.
    Proof. intros H. induction 1 as [x|x y z Hxy _ IH]; [constructor|]. etransitivity; [apply H; exact Hxy|exact IH]. Qed.
    Lemma chains_disjoint c c' x : (c < bc)%nat -> (c' < bc)%nat -> x ∈ c :: ch C c -> x ∈ c' :: ch C c' -> c = c'.
    Proof using I.
      intros Hc Hc' H1 H2. destruct (decide (c = c')) as [|Hne]; [assumption|exfalso]. pose proof (o_len _ _ _ _ _ _ _ _ _ _ _ _ _ I) as (_ & _ & _ & _ & EC).
      assert (Hge : forall d, x ∈ ch C d -> (bc <= x)%nat) by (intros d Hd; apply ch_in in Hd; apply (FL f_ge s ls C F X R I) in Hd; lia).
      apply elem_of_cons in H1 as [-> |H1]; apply elem_of_cons in H2 as [H2|H2]; [congruence|apply Hge in H2; lia|subst x; apply Hge in H1; lia|].
      unfold ch in H1, H2. destruct (C !! c) as [l|] eqn:E1; [|inversion H1]. destruct (C !! c') as [l'|] eqn:E2; [|inversion H2]. cbn in H1, H2.
      destruct (bind_split (fun l => l) C c l E1) as (r & P1 & _ & P3). pose proof (P3 c' l' x (not_eq_sym Hne) E2 H2) as Hr.
      pose proof (FL f_nodup s ls C F X R I) as ND. apply NoDup_app in ND as (ND & _ & _). rewrite P1 in ND. apply NoDup_app in ND as (_ & ND & _). exact (ND x H1 Hr).
    Qed.
    (** the offset of an entry in hand is set to 0 *)
    Lemma zero_off x pc : x ∈ handt t -> hand pc = hand (c_pc t) -> held b pc = held b (c_pc t) -> cpend pc = cpend (c_pc t) -> leavesI pc = leavesI (c_pc t) -> leavesE pc = leavesE (c_pc t) -> proj_at pc = proj_at (c_pc t) ->
      kn (put_off s x 0) C op pc -> oinv (put_off s x 0) (<[i := cgo t pc]> ls) C F X R.
    Proof using HP I Hi Ep.
      intros Hx H1 H2 H3 H4 H5 H6 H7. pose proof (o_len _ _ _ _ _ _ _ _ _ _ _ _ _ I) as (A1 & A2 & A3 & A4 & A5). destruct (FL f_hand s ls C F X R I i t x Hi Hx) as (Hr & HnC & HnF).
      refine (SL upd s ls C F X R i t (put_off s x 0) _ C F X R I Hi _ _ _ _ _ _ _ _ _ _ _ _ _ _).
      - cbn. rewrite insert_length. auto.
      - unfold handt. cbn [cgo c_pc]. rewrite H1. reflexivity.
      - intros c Hc. cbn. apply linked_ne; [|exact (o_link _ _ _ _ _ _ _ _ _ _ _ _ _ I c Hc)]. intros Hin. apply HnC. apply elem_of_cons in Hin as [-> |Hin]; [left; exact Hc|right; eapply ch_in; exact Hin].
      - exact (o_occ _ _ _ _ _ _ _ _ _ _ _ _ _ I).
      - exact (o_free _ _ _ _ _ _ _ _ _ _ _ _ _ I).
      - exact (o_val _ _ _ _ _ _ _ _ _ _ _ _ _ I).
      - intros y o Hy. cbn in Hy. apply list_lookup_insert_Some in Hy as [(<- & <- & _)|[_ Hy]]; [lia|exact (o_off _ _ _ _ _ _ _ _ _ _ _ _ _ I y o Hy)].
      - intros y. rewrite (s_held kf hash bc t op rest Ep), (s_held0 kf hash bc t op rest Ep), H2. reflexivity.
      - change (stored (put_off s x 0)) with (stored s). unfold pendt. cbn [cgo c_pc put_off c_count]. lia.
      - unfold projt at 1. cbn [cgo c_pc]. rewrite H6. rewrite list_insert_id by (rewrite list_lookup_fmap, Hi; reflexivity). exact (o_vec _ _ _ _ _ _ _ _ _ _ _ _ _ I).
      - rewrite (s_inst t pc H4). reflexivity.
      - right. split; [reflexivity|apply s_erst; exact H5].
      - refine (SL others s ls C F X R i t (put_off s x 0) C x I Hi (or_introl Hx) _ _ _ _ _ eq_refl).
        + intros y Hy. cbn. rewrite list_lookup_insert_ne by congruence. auto.
        + auto.
        + auto.
        + intros y e Hn. right. intros Hr'. apply Hn. eapply rtc_mono; [|exact Hr']. intros a c Hac. unfold nxt in Hac. cbn in Hac. apply list_lookup_insert_Some in Hac as [(<- & H & _)|[_ H]]; [assert (c = x) as -> by lia; constructor|apply rtc_once; exact H].
        + intros _. apply ext_refl.
      - apply (FL s_thr_go s ls C F X R i t op rest I Hi Ep). exact H7.
    Qed.
    (** an entry in hand is linked behind the last entry of a list *)
    Lemma link_in e p v pc : op = CInsert v -> e ∈ heldt t -> inC C e -> c_off s !! e = Some 0 -> hand (c_pc t) = [p] -> hand pc = [] -> c_occ s !! p = Some true -> c_off s !! p = Some 0 ->
      held b pc = held b (c_pc t) -> cpend pc = cpend (c_pc t) -> leavesI pc = leavesI (c_pc t) -> leavesE pc = leavesE (c_pc t) -> proj_at pc = proj_at (c_pc t) ->
      (forall s' C', kn s' C' op pc) -> exists C', oinv (put_off s e (Z.of_nat p - Z.of_nat e)) (<[i := cgo t pc]> ls) C' F X R.
    Proof using HP I Hi Ep.
      intros Eop Hel Hein Heo Hh Hh' Hpo Hpz H2 H3 H4 H5 H6 H7. pose proof (o_len _ _ _ _ _ _ _ _ _ _ _ _ _ I) as (A1 & A2 & A3 & A4 & A5).
      assert (Hpt : p ∈ handt t) by (unfold handt; rewrite Hh; left). destruct (FL f_hand s ls C F X R I i t p Hi Hpt) as (Hr & HnC & HnF).
      destruct (FL f_end s ls C F X R I e Hein Heo) as (c & Hc & Ee). exists (<[c := ch C c ++ [p]]> C). set (C' := <[c := ch C c ++ [p]]> C).
      assert (HcC : (c < length C)%nat) by lia. assert (Ech : ch C' c = ch C c ++ [p]) by (apply ch_same; exact HcC). assert (Eoth : forall d, d <> c -> ch C' d = ch C d) by (intros d Hd; apply ch_other; congruence).
      assert (Hflat : flat C' ≡ₚ p :: flat C). { apply (Permutation_app_inv_r (ch C c)). unfold C'. rewrite flat_insert by exact HcC. solve_Permutation. }
      assert (Hext : ext C C') by (intros d; destruct (decide (d = c)) as [-> |Hd]; [exists [p]; exact Ech|exists []; rewrite app_nil_r; apply Eoth; exact Hd]).
      assert (Hmono : forall y, inC C y -> inC C' y) by (intros y [Hy|Hy]; [left; exact Hy|right; rewrite Hflat; right; exact Hy]).
      assert (Hpc : p ∉ c :: ch C c). { intros Hin. apply HnC. apply elem_of_cons in Hin as [-> |Hin]; [left; exact Hc|right; eapply ch_in; exact Hin]. }
      assert (Hel_c : e ∈ c :: ch C c) by (rewrite Ee; apply lend_elem). assert (Hep : e <> p) by (intros ->; contradiction).
      refine (SL upd s ls C F X R i t (put_off s e (Z.of_nat p - Z.of_nat e)) _ C' F X R I Hi _ _ _ _ _ _ _ _ _ _ _ _ _ _).
      - cbn. unfold C'. rewrite !insert_length. auto.
      - unfold handt. cbn [cgo c_pc]. rewrite Hh, Hh', Hflat. solve_Permutation.
      - intros d Hd. cbn [put_off c_off]. destruct (decide (d = c)) as [-> |Hne].
        + rewrite Ech, Ee. apply linked_snoc; [exact (o_link _ _ _ _ _ _ _ _ _ _ _ _ _ I c Hc)|exact (FL f_list_nodup s ls C F X R I c Hc)|exact Hpc|exact Hpz].
        + rewrite (Eoth d Hne). apply linked_ne; [|exact (o_link _ _ _ _ _ _ _ _ _ _ _ _ _ I d Hd)]. intros Hin. apply Hne. exact (chains_disjoint d c e Hd Hc Hin Hel_c).
      - intros y Hy. rewrite Hflat in Hy. apply elem_of_cons in Hy as [-> |Hy]; [exact Hpo|exact (o_occ _ _ _ _ _ _ _ _ _ _ _ _ _ I y Hy)].
      - exact (o_free _ _ _ _ _ _ _ _ _ _ _ _ _ I).
      - exact (o_val _ _ _ _ _ _ _ _ _ _ _ _ _ I).
      - intros y o Hy. cbn in Hy. apply list_lookup_insert_Some in Hy as [(<- & <- & _)|[_ Hy]]; [lia|exact (o_off _ _ _ _ _ _ _ _ _ _ _ _ _ I y o Hy)].
      - intros y. rewrite (s_held kf hash bc t op rest Ep), (s_held0 kf hash bc t op rest Ep), H2. reflexivity.
      - change (stored (put_off s e (Z.of_nat p - Z.of_nat e))) with (stored s). unfold pendt. cbn [cgo c_pc put_off c_count]. lia.
      - unfold projt at 1. cbn [cgo c_pc]. rewrite H6. rewrite list_insert_id by (rewrite list_lookup_fmap, Hi; reflexivity). exact (o_vec _ _ _ _ _ _ _ _ _ _ _ _ _ I).
      - rewrite (s_inst t pc H4). reflexivity.
      - right. split; [reflexivity|apply s_erst; exact H5].
      - refine (SL others s ls C F X R i t (put_off s e (Z.of_nat p - Z.of_nat e)) C' e I Hi (or_intror (conj Hel Hein)) _ _ _ _ _ eq_refl).
        + intros y Hy. cbn. rewrite list_lookup_insert_ne by congruence. auto.
        + auto.
        + intros j u y _ _ _. apply Hmono.
        + intros y z Hn. destruct (decide (z = p)) as [-> |Hzp]; [left; right; rewrite Hflat; left|]. right. intros Hr'. apply Hn.
          assert (Hedge : forall a d, nxt (put_off s e (Z.of_nat p - Z.of_nat e)) a d -> nxt s a d \/ (a = e /\ d = p)). { intros a d Had. unfold nxt in Had |- *. cbn in Had. apply list_lookup_insert_Some in Had as [(<- & H & _)|[_ H]]; [right; split; [reflexivity|lia]|left; exact H]. }
          assert (Hstay : forall d, rtc (nxt (put_off s e (Z.of_nat p - Z.of_nat e))) p d -> d = p).
          { assert (Hst : forall a d, rtc (nxt (put_off s e (Z.of_nat p - Z.of_nat e))) a d -> a = p -> d = p); [|intros d Hd; eapply Hst; eauto].
            intros a d Hd. induction Hd as [x|x y0 z0 Hxy _ IH]; [auto|]. intros ->. destruct (Hedge _ _ Hxy) as [H|[H _]]; [|congruence]. unfold nxt in H. rewrite Hpz in H. injection H as H. assert (y0 = p) as -> by lia. apply IH. reflexivity. }
          clear Hn. induction Hr' as [y|y y' z Hyy Hr' IH]; [constructor|]. destruct (Hedge _ _ Hyy) as [H|[-> ->]]; [eapply rtc_l; [exact H|apply IH; exact Hzp]|]. exfalso. apply Hzp. apply Hstay. exact Hr'.
        + intros _. exact Hext.
      - apply (FL s_thr_go s ls C F X R i t op rest I Hi Ep). apply H7.
    Qed.
    (** the erasing thread takes an entry out of its list *)
    Lemma link_out p q po qo k pc : op = CErase k -> p ∈ heldt t -> q ∈ heldt t -> before C b q p -> c_off s !! p = Some po -> c_off s !! q = Some qo -> hand (c_pc t) = [] -> hand pc = [p] ->
      held b pc = held b (c_pc t) -> cpend pc = cpend (c_pc t) -> leavesI pc = leavesI (c_pc t) -> leavesE pc = leavesE (c_pc t) -> proj_at pc = proj_at (c_pc t) ->
      (forall C', kn (put_off s q (unlink_offset po qo)) C' op pc) -> exists C', oinv (put_off s q (unlink_offset po qo)) (<[i := cgo t pc]> ls) C' F X R.
    Proof using HP I Hi Ep.
      intros Eop Hpl Hql Hbef Hpo Hqo Hh Hh' H2 H3 H4 H5 H6 H7. pose proof (o_len _ _ _ _ _ _ _ _ _ _ _ _ _ I) as (A1 & A2 & A3 & A4 & A5). pose proof (HB (op_key kf op)) as Hb.
      pose proof Hbef as (P1 & P2 & EC & Eq). exists (<[b := P1 ++ P2]> C). set (C' := <[b := P1 ++ P2]> C).
      destruct (before_inC bc C b q p Hb Hbef) as [Hqin Hpin]. assert (HbC : (b < length C)%nat) by lia. assert (Ech : ch C' b = P1 ++ P2) by (apply ch_same; exact HbC). assert (Eoth : forall d, d <> b -> ch C' d = ch C d) by (intros d Hd; apply ch_other; congruence).
      assert (Hflat : p :: flat C' ≡ₚ flat C). { apply (Permutation_app_inv_r (ch C b)). cbn [app]. unfold C'. rewrite flat_insert by exact HbC. rewrite EC. solve_Permutation. }
      assert (Hmono : forall y, y <> p -> inC C y -> inC C' y). { intros y Hy [H|H]; [left; exact H|right]. rewrite <- Hflat in H. apply elem_of_cons in H as [H|H]; [congruence|exact H]. }
      pose proof (o_link _ _ _ _ _ _ _ _ _ _ _ _ _ I b Hb) as HL. rewrite EC in HL. pose proof (FL f_list_nodup s ls C F X R I b Hb) as ND. rewrite EC in ND.
      assert (Hqb : q ∈ b :: ch C b). { rewrite EC, Eq. rewrite app_comm_cons. apply elem_of_app. left. apply lend_elem. }
      assert (Hqp : q <> p). { intros Hqp. rewrite app_comm_cons in ND. apply NoDup_app in ND as (_ & ND & _). apply (ND p); [rewrite <- Hqp, Eq; apply lend_elem|left]. }
      assert (Hlinkqp : nxt s q p). { rewrite Eq. pose proof (linked_split _ _ _ _ HL) as (_ & H & _). exact H. }
      assert (Hu : forall y, Z.of_nat q + unlink_offset po qo = Z.of_nat y -> rtc (nxt s) q y).
      { intros y Hy. unfold unlink_offset in Hy. destruct (po =? 0) eqn:E0; [assert (y = q) as -> by lia; constructor|]. eapply rtc_l; [exact Hlinkqp|]. apply rtc_once. unfold nxt in Hlinkqp |- *. rewrite Hqo in Hlinkqp. injection Hlinkqp as Hl. rewrite Hpo. f_equal. lia. }
      assert (Hrange : 0 <= Z.of_nat q + unlink_offset po qo < Z.of_nat n).
      { pose proof (FL f_inC s ls C F X R I q Hqin) as Hqn. unfold unlink_offset. destruct (po =? 0) eqn:E0; [lia|]. unfold nxt in Hlinkqp. rewrite Hqo in Hlinkqp. injection Hlinkqp as Hl. pose proof (o_off _ _ _ _ _ _ _ _ _ _ _ _ _ I p po Hpo). lia. }
      refine (SL upd s ls C F X R i t (put_off s q (unlink_offset po qo)) _ C' F X R I Hi _ _ _ _ _ _ _ _ _ _ _ _ _ _).
      - cbn. unfold C'. rewrite !insert_length. auto.
      - unfold handt. cbn [cgo c_pc]. rewrite Hh, Hh', <- Hflat. solve_Permutation.
      - intros d Hd. cbn [put_off c_off]. destruct (decide (d = b)) as [-> |Hne].
        + rewrite Ech, Eq. rewrite Eq in Hqo. exact (linked_remove _ _ _ p _ _ _ HL ND Hpo Hqo).
        + rewrite (Eoth d Hne). apply linked_ne; [|exact (o_link _ _ _ _ _ _ _ _ _ _ _ _ _ I d Hd)]. intros Hin. apply Hne. exact (chains_disjoint d b q Hd Hb Hin Hqb).
      - intros y Hy. apply (o_occ _ _ _ _ _ _ _ _ _ _ _ _ _ I y). rewrite <- Hflat. right. exact Hy.
      - exact (o_free _ _ _ _ _ _ _ _ _ _ _ _ _ I).
      - exact (o_val _ _ _ _ _ _ _ _ _ _ _ _ _ I).
      - intros y o Hy. cbn in Hy. apply list_lookup_insert_Some in Hy as [(<- & <- & _)|[_ Hy]]; [exact Hrange|exact (o_off _ _ _ _ _ _ _ _ _ _ _ _ _ I y o Hy)].
      - intros y. rewrite (s_held kf hash bc t op rest Ep), (s_held0 kf hash bc t op rest Ep), H2. reflexivity.
      - change (stored (put_off s q (unlink_offset po qo))) with (stored s). unfold pendt. cbn [cgo c_pc put_off c_count]. lia.
      - unfold projt at 1. cbn [cgo c_pc]. rewrite H6. rewrite list_insert_id by (rewrite list_lookup_fmap, Hi; reflexivity). exact (o_vec _ _ _ _ _ _ _ _ _ _ _ _ _ I).
      - rewrite (s_inst t pc H4). reflexivity.
      - right. split; [reflexivity|apply s_erst; exact H5].
      - refine (SL others s ls C F X R i t (put_off s q (unlink_offset po qo)) C' q I Hi (or_intror (conj Hql Hqin)) _ _ _ _ _ eq_refl).
        + intros y Hy. cbn. rewrite list_lookup_insert_ne by congruence. auto.
        + auto.
        + intros j u y Hji Hj Hy Hyin. apply Hmono; [|exact Hyin]. intros ->. exact (FL f_excl s ls C F X R I i j t u p (not_eq_sym Hji) Hi Hj (or_intror (conj Hpl (or_intror Hpin))) (or_intror (conj Hy Hyin))).
        + intros y z Hn. right. intros Hr'. apply Hn. eapply rtc_mono; [|exact Hr']. intros a d Had. unfold nxt in Had. cbn in Had. apply list_lookup_insert_Some in Had as [(<- & H & _)|[_ H]]; [apply Hu; lia|apply rtc_once; exact H].
        + intros Hne. exfalso. apply Hne. apply (FL s_E s ls C F X R i t op rest I Hi Ep). rewrite Eop. exact Logic.I.
      - apply (FL s_thr_go s ls C F X R i t op rest I Hi Ep). apply H7.
    Qed.
    (** steps of the vector of free entries *)
    Lemma vec_others q y q' : (projt <$> ls) !! i = Some q -> qstep (vctl E) i (c_ex s) q = Some (y, q') -> forall j u, j <> i -> ls !! j = Some u -> written (c_ex s) (projt u) -> written y (projt u).
    Proof using I.
      intros Hq Hst j u Hji Hj Hw. eapply (written_other E _ _ _ _ i j q); [exact (o_vec _ _ _ _ _ _ _ _ _ _ _ _ _ I)|exact Hq|rewrite list_lookup_fmap, Hj; reflexivity|congruence|exact Hst|exact Hw].
    Qed.
    Lemma vec y pc F' X' : hand pc ++ F' ++ X' ≡ₚ hand (c_pc t) ++ F ++ X -> (forall x, x ∈ F' -> c_occ s !! x = Some false) -> held b pc = held b (c_pc t) -> cpend pc = cpend (c_pc t) -> leavesI pc = leavesI (c_pc t) -> leavesE pc = leavesE (c_pc t) ->
      inv (T:=Z) (C:=Z) E vm (fun _ => True) (fun w => sumZ w (Z.of_nat <$> F')) y (<[i := proj_at pc]> (projt <$> ls)) ->
      (forall j u, j <> i -> ls !! j = Some u -> written (c_ex s) (projt u) -> written y (projt u)) ->
      kn (put_ex s y) C op pc -> oinv (put_ex s y) (<[i := cgo t pc]> ls) C F' X' R.
    Proof using HP I Hi Ep.
      intros H1 HF H2 H3 H4 H5 H6 H7 H8. refine (SL upd_cells s ls C F X R i t (put_ex s y) (cgo t pc) F' X' I Hi eq_refl eq_refl eq_refl eq_refl H1 HF _ _ H6 _ _ H7 _).
      - intros x. rewrite (s_held kf hash bc t op rest Ep), (s_held0 kf hash bc t op rest Ep), H2. reflexivity.
      - unfold pendt. cbn [cgo c_pc put_ex c_count]. lia.
      - apply s_inst. exact H4.
      - apply s_erst. exact H5.
      - apply (FL s_thr_go s ls C F X R i t op rest I Hi Ep). exact H8.
    Qed.
  End one_step.
End link.
