(** insert(begin, end) and erase(begin, end) of the unordered containers. *)
From Verif Require Import Base Conc SlotModel SlotSpec VectorModel VectorProofs UnorderedModel UnorderedSpec UnorderedProofs UConcModel UConcSpec UConcTop UEraseModel UEraseSpec UEraseTop UHistSpec UHistProofs UProgTop URangeModel.

(** *** every call returns a result of its kind *)
Section typed.
  Context {K V : Type} (kf : V -> K) (hash : K -> Z) (keq : K -> K -> bool) (bc E : nat).
  Definition typed (op : cop K V) (r : cret) : Prop :=
    match op, r with CInsert _, (RInserted _ | RNotInserted) => True | CErase _, RErased _ => True | CFind _, RFound _ => True | _, _ => False end.
  Definition fits (op : cop K V) (pc : upc) : Prop :=
    match pc with
    | UIdle => True
    | FOcc c _ | FVal c _ | FOff c _ | FAdd c _ => match c, op with FUser, CFind _ => True | (FIns1 | FInsB | FInsL _ _), CInsert _ => True | (FEr1 | FErB _ | FErL _ _), CErase _ => True | _, _ => False end
    | POff _ _ _ | PAdd _ _ _ | XLockB _ | XResetB _ | XCntB _ | XDesB _ | XUnlB _ _ | XLock1 _ _ | XLock2 _ _ | XBack _ | XTest _ _ | XAdd1 _ _ | XAdd2 _ _ _ | XPut _ _ _
    | XReset _ _ | XCnt _ _ | XDes _ _ | XPush _ _ _ | XUnl1 _ _ _ | XUnl2 _ _ => match op with CErase _ => True | _ => False end
    | _ => match op with CInsert _ => True | _ => False end
    end.
  Definition tfit (t : cthread K V) : Prop := (match c_prog t with [] => True | op :: _ => fits op (c_pc t) end) /\ forall op r, (op, r) ∈ c_log t -> typed op r.
  Lemma tfit_go t op rest pc : c_prog t = op :: rest -> tfit t -> fits op pc -> tfit (cgo t pc).
  Proof. intros Ep [_ H2] H. split; [|exact H2]. cbn [cgo c_prog c_pc]. rewrite Ep. exact H. Qed.
  Lemma tfit_finish t op rest r : c_prog t = op :: rest -> tfit t -> typed op r -> tfit (cfinish t op r).
  Proof.
    intros Ep [_ H2] H. split; [|].
    - cbn [cfinish c_prog c_pc]. rewrite Ep. cbn [tail]. destruct rest; exact I.
    - cbn [cfinish c_log]. intros o r' Hin. apply elem_of_app in Hin as [Hin|Hin]; [exact (H2 _ _ Hin)|]. apply elem_of_list_singleton in Hin. congruence.
  Qed.
  Lemma ustep_fit i s t s' t' : ustep kf hash keq bc E i s t = Some (s', t') -> tfit t -> tfit t'.
  Proof.
    intros H T. unfold ustep in H. destruct (c_prog t) as [|op rest] eqn:Ep; [discriminate|]. pose proof T as [Tp _]. rewrite Ep in Tp.
    assert (Hgo : forall pc, fits op pc -> tfit (cgo t pc)) by (intros pc; apply (tfit_go t op rest pc Ep T)).
    assert (Hfin : forall r, typed op r -> tfit (cfinish t op r)) by (intros r; apply (tfit_finish t op rest r Ep T)).
    destruct (bucket_of hash bc (op_key kf op)) as [b|]; [|discriminate].
    destruct (c_pc t) eqn:Epc; cbn [fits] in Tp; repeat case_match; try discriminate; injection H as <- <-; unfold after_find, after_end, after_prev, again; repeat case_match; subst; try contradiction;
      (apply Hgo || apply Hfin); cbn; auto.
  Qed.
  Lemma estep_fit i s t s' t' : estep kf hash keq bc E i s t = Some (s', t') -> tfit t -> tfit t'.
  Proof.
    intros H T. unfold estep in H. destruct (c_pc t) eqn:Ec; try (eapply ustep_fit; [exact H|exact T]).
    - destruct (c_prog t) as [|op rest] eqn:Ep; [discriminate|]. pose proof T as [Tp _]. rewrite Ep, Ec in Tp. repeat case_match; try discriminate. injection H as <- <-. eapply tfit_go; [exact Ep|exact T|exact Tp].
    - destruct (c_prog t) as [|op rest] eqn:Ep; [discriminate|]. pose proof T as [Tp _]. rewrite Ep, Ec in Tp. repeat case_match; try discriminate. injection H as <- <-. eapply tfit_go; [exact Ep|exact T|exact Tp].
  Qed.
  Lemma reach_typed (step : nat -> cshared V -> cthread K V -> option (cshared V * cthread K V)) (Hf : forall i s t s' t', step i s t = Some (s', t') -> tfit t -> tfit t') s0 progs s ls :
    Conc.reach step (s0, c_start progs) (s, ls) -> forall op r, result ls op r -> typed op r.
  Proof.
    intros R. pose (P := fun c : cshared V * list (cthread K V) => forall t, t ∈ c.2 -> tfit t). assert (H : P (s, ls)).
    { refine (invariant step P _ (s0, c_start progs) (s, ls) _ R).
      - intros c c' H Hs. inversion Hs as [s1 ls1 j t1 s2 t2 Hj Hst]; subst. intros t Ht. cbn [snd] in *. apply elem_of_list_lookup in Ht as [i Hi]. apply list_lookup_insert_Some in Hi as [(_ & <- & _)|[_ Hi]].
        + eapply Hf; [exact Hst|]. apply H. eapply elem_of_list_lookup_2. exact Hj.
        + apply H. eapply elem_of_list_lookup_2. exact Hi.
      - intros t Ht. cbn [snd] in Ht. unfold c_start in Ht. apply elem_of_list_fmap in Ht as (p & -> & _). split; [cbn; destruct p; exact I|]. intros op r Hin. inversion Hin. }
    intros op r (t & Ht & Hl). exact (proj2 (H t Ht) op r Hl).
  Qed.
End typed.

Lemma sumZ_nonzero {L} (f : L -> Z) ls : sumZ f ls <> 0 -> exists l, l ∈ ls /\ f l <> 0.
Proof.
  induction ls as [|l ls IH]; [intros H; destruct (H eq_refl)|]. cbn [sumZ]. intros H. destruct (decide (f l = 0)) as [Hz|Hz]; [|exists l; split; [left|exact Hz]].
  destruct IH as (l' & Hl & Hf); [lia|]. exists l'. split; [right; exact Hl|exact Hf].
Qed.

Lemma elem_of_concat {A} (x : A) ls : x ∈ concat ls <-> exists l, x ∈ l /\ l ∈ ls.
Proof. rewrite elem_of_list_In, in_concat. split; intros (l & H1 & H2); exists l; (split; [|]); try (apply elem_of_list_In; assumption); apply elem_of_list_In in H1; apply elem_of_list_In in H2; try apply elem_of_list_In; assumption. Qed.

Section range.
  Context {K V : Type} (kf : V -> K) (hash : K -> Z) (keq : K -> K -> bool) (ord : nat -> list nat) (bc E : nat).
  Hypothesis Hk : key_equality keq.
  Hypothesis Hh : hash_respects keq hash.
  Hypothesis Ho : any_order ord.
  Hypothesis Hsz : sizes_ok bc E.
  Context (fuel : nat).
  Hypothesis Hf : (2 <= fuel)%nat.
  Notation urep := (urep kf hash keq true bc E (replicate (bc + E) false)).
  Let kr := proj1 Hk.
  Let ks := proj1 (proj2 Hk).
  Let kt := proj2 (proj2 Hk).
  Let Hbc := proj1 Hsz.
  Let HE := proj1 (proj2 Hsz).
  Let Hmax := proj2 (proj2 Hsz).

  Lemma in_calls {A} (progs : list (list (cop K V))) (f : A -> cop K V) xs op prog : concat progs ≡ₚ f <$> xs -> prog ∈ progs -> op ∈ prog -> exists x, x ∈ xs /\ op = f x.
  Proof. intros HP H1 H2. assert (H : op ∈ concat progs) by (apply elem_of_concat; eauto). rewrite HP in H. apply elem_of_list_fmap in H as (x & -> & H). eauto. Qed.
  Lemma calls_count (progs : list (list (cop K V))) (vs : list V) : concat progs ≡ₚ CInsert <$> vs -> insert_calls progs = length vs.
  Proof.
    intros HP. unfold insert_calls. set (g := fun op : cop K V => match op with CInsert v => Some v | _ => None end).
    assert (H1 : progs ≫= (fun prog => omap g prog) = omap g (concat progs)).
    { clear HP. induction progs as [|p progs IH]; [reflexivity|]. cbn [concat]. rewrite omap_app, <- IH. reflexivity. }
    rewrite H1. assert (HP2 : omap g (concat progs) ≡ₚ omap g (CInsert <$> vs)) by (rewrite HP; reflexivity). rewrite HP2. clear. induction vs as [|v vs IH]; [reflexivity|]. cbn. f_equal. exact IH.
  Qed.
  (** the result of every call of the range is in the log of some thread *)
  Lemma answer {A} step (Hl : logs_calls (K:=K) (V:=V) step) s0 progs s ls (f : A -> cop K V) xs x : concat progs ≡ₚ f <$> xs -> Conc.reach step (s0, c_start progs) (s, ls) -> all_returned ls ->
    x ∈ xs -> exists r, result ls (f x) r.
  Proof.
    intros HP R Ha Hx. pose proof (answered_of step Hl s0 progs s ls R Ha) as HA. assert (H : f x ∈ concat progs) by (rewrite HP; apply elem_of_list_fmap; eauto).
    apply elem_of_concat in H as (prog & H1 & H2). apply elem_of_list_lookup in H2 as [i Hi]. destruct (Forall2_lookup_l _ _ _ _ _ HA Hi) as (t & Ht & Et). rewrite <- Et in H1.
    apply elem_of_list_fmap in H1 as ([op r] & Eo & H1). cbn in Eo. subst op. exists r, t. split; [eapply elem_of_list_lookup_2; exact Ht|exact H1].
  Qed.
  Lemma kd_ext (M M' : list V) : M ≡ₚ M' -> forall k, holds kf keq M k <-> holds kf keq M' k.
  Proof. intros HP k. split; intros (v & Hv & H); exists v; (split; [|exact H]); [rewrite <- HP|rewrite HP]; exact Hv. Qed.

  Lemma insert_range_good H u vs u' M0 : history kf hash keq ord fuel bc E H u -> content kf keq (shared_of u) M0 -> Z.of_nat (length vs) <= v_size (u_excess u) ->
    insert_range kf hash keq bc E u vs u' ->
    exists M, content kf keq (shared_of u') M /\ u_size u' = Ret (Z.of_nat (length M)) /\ u_valid kf hash keq ord u' = Ret true /\
      (forall v, v ∈ M0 -> v ∈ M) /\ (forall v, v ∈ M -> v ∈ M0 \/ (v ∈ vs /\ ~ holds kf keq M0 (kf v))) /\ (forall k, holds kf keq M k <-> holds kf keq M0 k \/ holds kf keq vs k) /\
      exists ph, history kf hash keq ord fuel bc E (H ++ [ph]) u'.
  Proof using All.
    intros HH HM0 Hroom Hr. inversion Hr as [progs s ls HP R Ha]; subst.
    assert (Hp : inserts_and_lookups progs) by (intros prog op H1 H2; destruct (in_calls progs CInsert vs op prog HP H1 H2) as (v & _ & ->); exact I).
    rewrite <- (calls_count progs vs HP) in Hroom. destruct (history_urep kf hash keq ord bc E Hk Hh Ho Hsz fuel Hf H u HH) as (G & st & Ru).
    destruct (insert_phase kf hash keq ord bc E Hk Hh Ho Hsz fuel Hf u G st progs s ls Ru Hp Hroom R Ha) as (G' & st' & R' & _ & P1 & P2 & P3 & _).
    pose proof (rep_content kf hash keq ord bc E Hk Hh Ho Hsz fuel Hf _ _ _ R') as HC. pose proof (rep_content_perm kf hash keq ord bc E Hk Hh Ho Hsz fuel Hf _ _ _ _ Ru HM0) as HPM.
    exists (G' ≫= gvals). split; [exact HC|].
    destruct (size_rep kf hash keq true ord Ho kr ks kt Hh bc E Hbc HE Hmax _ _ _ _ R') as [Esz _]. split; [exact Esz|].
    split; [exact (valid_rep kf hash keq true ord Ho kr ks kt Hh bc E Hbc HE Hmax _ _ _ R')|].
    assert (Hins : forall v, v ∈ inserted_values ls -> v ∈ vs).
    { intros v Hv. unfold inserted_values in Hv. apply elem_of_list_bind in Hv as (t & Hv & Ht). apply elem_of_list_omap in Hv as ([op r] & Hin & E1). destruct op as [v'|k|k]; try discriminate. destruct r; try discriminate. injection E1 as ->.
      apply elem_of_list_lookup in Ht as [i Hi]. destruct (prog_of _ (ustep_logs kf hash keq bc E) _ _ _ _ _ _ R Hi) as (prog & E1 & E2).
      destruct (in_calls progs CInsert vs (CInsert v) prog HP) as (x & Hx & Ex); [eapply elem_of_list_lookup_2; exact E1| |injection Ex as ->; exact Hx].
      rewrite <- E2. apply elem_of_app. left. apply elem_of_list_fmap. eexists. split; [|exact Hin]. reflexivity. }
    assert (Hold : forall v, v ∈ M0 -> v ∈ G' ≫= gvals) by (intros v Hv; rewrite P1; apply elem_of_app; left; rewrite <- HPM; exact Hv).
    split; [exact Hold|]. split; [|split].
    - intros v Hv. rewrite P1 in Hv. apply elem_of_app in Hv as [Hv|Hv]; [left; rewrite HPM; exact Hv|]. right. split; [exact (Hins v Hv)|].
      intros (w & Hw & Hkw). rewrite HPM in Hw. apply elem_of_list_lookup in Hw as [i Hi], Hv as [j Hj].
      pose proof (kd_perm_iff kf hash keq true ord Ho kr ks kt Hh bc E Hbc HE Hmax _ _ P1 P2) as KD. specialize (KD i (length (G ≫= gvals) + j)%nat w v).
      rewrite lookup_app_l in KD by (eapply lookup_lt_Some; exact Hi). rewrite lookup_app_r in KD by lia. replace (length (G ≫= gvals) + j - length (G ≫= gvals))%nat with j in KD by lia.
      specialize (KD Hi Hj Hkw). apply lookup_lt_Some in Hi. lia.
    - intros k. split.
      + intros (v & Hv & Hkv). rewrite P1 in Hv. apply elem_of_app in Hv as [Hv|Hv]; [left|right]; exists v; (split; [|exact Hkv]); [rewrite HPM; exact Hv|exact (Hins v Hv)].
      + intros [(v & Hv & Hkv)|(v & Hv & Hkv)]; [exists v; auto|].
        destruct (answer _ (ustep_logs kf hash keq bc E) _ progs s ls CInsert vs v HP R Ha Hv) as [r Hr2].
        pose proof (reach_typed _ (ustep_fit kf hash keq bc E) _ _ _ _ R _ _ Hr2) as Ht. destruct r as [p| |b|o]; try contradiction.
        * exists v. split; [|exact Hkv]. rewrite P1. apply elem_of_app. right. destruct Hr2 as (t & Ht1 & Ht2). apply elem_of_list_bind. exists t. split; [|exact Ht1]. apply elem_of_list_omap. eexists. split; [exact Ht2|reflexivity].
        * destruct (P3 v Hr2) as (w & Hw & Hkw). exists w. split; [exact Hw|]. eapply kt; [exact Hkw|exact Hkv].
    - exists (InsertKernel progs ls). eapply then_phase; [exact HH|]. eapply run_inserts; eassumption.
  Qed.

  Lemma erase_range_good H u kl u' M0 : history kf hash keq ord fuel bc E H u -> content kf keq (shared_of u) M0 -> erase_range kf hash keq bc E u kl u' ->
    exists M, content kf keq (shared_of u') M /\ u_size u' = Ret (Z.of_nat (length M)) /\ u_valid kf hash keq ord u' = Ret true /\
      (forall v, v ∈ M <-> v ∈ M0 /\ forall k, k ∈ kl -> keq (kf v) k = false) /\ exists ph, history kf hash keq ord fuel bc E (H ++ [ph]) u'.
  Proof using All.
    intros HH HM0 Hr. inversion Hr as [progs s ls HP R Ha]; subst.
    assert (Hp : erases_and_lookups progs) by (intros prog op H1 H2; destruct (in_calls progs CErase kl op prog HP H1 H2) as (v & _ & ->); exact I).
    destruct (history_urep kf hash keq ord bc E Hk Hh Ho Hsz fuel Hf H u HH) as (G & st & Ru).
    destruct (erase_phase kf hash keq ord bc E Hk Hh Ho Hsz fuel Hf u G st progs s ls Ru Hp R Ha) as (G' & st' & R' & _ & P1 & P2 & P3 & _).
    pose proof (rep_content kf hash keq ord bc E Hk Hh Ho Hsz fuel Hf _ _ _ R') as HC. pose proof (rep_content_perm kf hash keq ord bc E Hk Hh Ho Hsz fuel Hf _ _ _ _ Ru HM0) as HPM.
    exists (G' ≫= gvals). split; [exact HC|].
    destruct (size_rep kf hash keq true ord Ho kr ks kt Hh bc E Hbc HE Hmax _ _ _ _ R') as [Esz _]. split; [exact Esz|].
    split; [exact (valid_rep kf hash keq true ord Ho kr ks kt Hh bc E Hbc HE Hmax _ _ _ R')|].
    assert (Hpos : forall (op : cop K V) r k, result ls op r -> op = CErase k -> r = RErased true -> forall k', keq k k' = true -> erased_times keq k' ls <> 0).
    { intros op r k (t & Ht & Hl) -> -> k' Hkk. apply elem_of_list_lookup in Ht as [i Hi], Hl as [j Hj]. unfold erased_times.
      assert (Hn : forall t : cthread K V, 0 <= sumZ (fun x => match x with (CErase k0, RErased true) => if keq k0 k' then 1 else 0 | _ => 0 end) (c_log t)).
      { intros t0. apply sumZ_nonneg. intros x _. cbn beta. repeat case_match; lia. }
      pose proof (sumZ_ge_elem _ ls i t (fun t _ => Hn t) Hi) as G1. cbn beta in G1.
      pose proof (sumZ_ge_elem (fun x : cop K V * cret => match x with (CErase k0, RErased true) => if keq k0 k' then 1 else 0 | _ => 0 end) (c_log t) j _ ltac:(intros x _; cbn beta; repeat case_match; lia) Hj) as G2. cbn beta iota in G2. rewrite Hkk in G2. lia. }
    split; [|exists (EraseKernel progs ls); eapply then_phase; [exact HH|]; eapply run_erases; eassumption].
    intros v. rewrite P1. unfold not_erased. rewrite elem_of_list_filter, <- HPM. split.
    - intros [Hz Hv]. split; [exact Hv|]. intros k Hkl. destruct (keq (kf v) k) eqn:Ek; [exfalso|reflexivity].
      destruct (answer _ (estep_logs kf hash keq bc E) _ progs s ls CErase kl k HP R Ha Hkl) as [r Hr2].
      pose proof (reach_typed _ (estep_fit kf hash keq bc E) _ _ _ _ R _ _ Hr2) as Ht. destruct r as [p| |b|o]; try contradiction. destruct b.
      + exact (Hpos _ _ k Hr2 eq_refl eq_refl (kf v) (ks _ _ Ek) Hz).
      + apply (P3 k Hr2). exists v. split; [|exact Ek]. rewrite P1. unfold not_erased. apply elem_of_list_filter. split; [exact Hz|]. rewrite <- HPM. exact Hv.
    - intros [Hv Hn]. split; [|exact Hv]. destruct (decide (erased_times keq (kf v) ls = 0)) as [|Hne]; [assumption|exfalso].
      assert (Hex : exists t k, t ∈ ls /\ (CErase k, RErased true) ∈ c_log t /\ keq k (kf v) = true).
      { unfold erased_times in Hne. destruct (sumZ_nonzero _ _ Hne) as (t & Ht & H1). cbn beta in H1. destruct (sumZ_nonzero _ _ H1) as ([op r] & Hin & H2). cbn beta iota in H2.
        destruct op as [|k|]; try (exfalso; exact (H2 eq_refl)). destruct r as [| |[]|]; try (exfalso; exact (H2 eq_refl)). destruct (keq k (kf v)) eqn:Ek; [|exfalso; exact (H2 eq_refl)]. eauto. }
      destruct Hex as (t & k & Ht & Hin & Ek). apply elem_of_list_lookup in Ht as [i Hi]. destruct (prog_of _ (estep_logs kf hash keq bc E) _ _ _ _ _ _ R Hi) as (prog & E1 & E2).
      destruct (in_calls progs CErase kl (CErase k) prog HP) as (x & Hx & Ex); [eapply elem_of_list_lookup_2; exact E1| |injection Ex as ->].
      { rewrite <- E2. apply elem_of_app. left. apply elem_of_list_fmap. eexists. split; [|exact Hin]. reflexivity. }
      specialize (Hn x Hx). rewrite (ks _ _ Ek) in Hn. discriminate.
  Qed.

  Lemma ranges_complete H u : history kf hash keq ord fuel bc E H u -> (forall vs, exists u', insert_range kf hash keq bc E u vs u') /\ (forall kl, exists u', erase_range kf hash keq bc E u kl u').
  Proof using All.
    intros HH. pose proof (history_urep kf hash keq ord bc E Hk Hh Ho Hsz fuel Hf H u HH) as Hu. split.
    - intros vs. assert (HP : concat [(CInsert (K:=K) <$> vs)] ≡ₚ CInsert <$> vs) by (cbn; rewrite app_nil_r; reflexivity).
      assert (Hp : inserts_and_lookups [(CInsert (K:=K) <$> vs)]) by (intros prog op H1 H2; destruct (in_calls _ CInsert vs op prog HP H1 H2) as (v & _ & ->); exact I).
      destruct (ins_complete kf hash keq true ord bc E Hk Hh Ho Hsz fuel Hf u _ _ _ Hu Hp ltac:(apply rtc_refl)) as (s & ls & R & Ha). eexists. eapply insert_range_run; eassumption.
    - intros kl. assert (HP : concat [(CErase (V:=V) <$> kl)] ≡ₚ CErase <$> kl) by (cbn; rewrite app_nil_r; reflexivity).
      assert (Hp : erases_and_lookups [(CErase (V:=V) <$> kl)]) by (intros prog op H1 H2; destruct (in_calls _ CErase kl op prog HP H1 H2) as (v & _ & ->); exact I).
      destruct (ers_complete kf hash keq true ord bc E Hk Hh Ho Hsz fuel Hf u _ _ _ Hu Hp ltac:(apply rtc_refl)) as (s & ls & R & Ha). eexists. eapply erase_range_run; eassumption.
  Qed.
End range.
