(** Concurrent inserts and lookups on the unordered containers: how many entries are in use, inserts with enough room, the state left behind. *)
From Verif Require Import Base Conc SlotModel SlotSpec SlotProofs VectorModel VectorProofs VectorConcProofs HashProofs UnorderedModel UnorderedSpec UnorderedProofs UConcModel UConcSpec UConcProofs UConcReach UConcFinal.

Local Arguments pushed_by : simpl never.
Local Arguments popped_by : simpl never.

Lemma sumZ_lookup {A} (f : A -> Z) (l : list A) : sumZ f l = sumZ (fun i => match l !! i with Some a => f a | None => 0 end) (seq 0 (length l)).
Proof.
  induction l as [|a l IH]; [reflexivity|]. cbn [length seq sumZ]. rewrite <- fmap_S_seq. rewrite IH. cbn. f_equal.
  generalize (seq 0 (length l)). intros is. induction is as [|i is IH2]; [reflexivity|]. cbn. rewrite IH2. reflexivity.
Qed.
Lemma sumZ_bind_length {A B} (f : A -> list B) l : sumZ (fun a => Z.of_nat (length (f a))) l = Z.of_nat (length (l ≫= f)).
Proof. induction l as [|a l IH]; [reflexivity|]. change ((a :: l) ≫= f) with (f a ++ (l ≫= f)). cbn [sumZ]. rewrite app_length. lia. Qed.
(** a list of options filled up to n *)
Lemma prefix_stored {A} (d : list (option A)) : forall m, (m <= length d)%nat -> (forall p, (p < length d)%nat -> live (lkd d p) = if (p <? m)%nat then 1 else 0) ->
  length (SlotSpec.stored d) = m /\ forall p, (p < length d)%nat -> d !! p = Some (SlotSpec.stored d !! p).
Proof.
  induction d as [|o d IH]; intros m Hm H; [cbn in *; split; [lia|intros; lia]|]. pose proof (H 0%nat ltac:(cbn; lia)) as H0. unfold lkd in H0. cbn in H0.
  destruct m as [|m].
  - destruct o; [discriminate|]. destruct (IH 0%nat ltac:(lia)) as [I1 I2]; [intros p Hp; apply (H (S p)); cbn; lia|]. change (SlotSpec.stored (None :: d)) with (SlotSpec.stored d).
    split; [exact I1|]. intros [|p] Hp; cbn; [rewrite lookup_ge_None_2 by lia; reflexivity|]. cbn in Hp. rewrite I2 by lia. rewrite !lookup_ge_None_2 by lia. reflexivity.
  - destruct o as [x|]; [|discriminate]. destruct (IH m ltac:(cbn in Hm; lia)) as [I1 I2]; [intros p Hp; apply (H (S p)); cbn; lia|]. change (SlotSpec.stored (Some x :: d)) with (x :: SlotSpec.stored d).
    split; [cbn; lia|]. intros [|p] Hp; [reflexivity|]. cbn in *. apply I2. lia.
Qed.

Section quiet.
  Context {K V : Type} (kf : V -> K) (hash : K -> Z) (keq : K -> K -> bool) (bc E : nat).
  Hypothesis keq_refl : forall a, keq a a = true.
  Hypothesis keq_sym : forall a b, keq a b = true -> keq b a = true.
  Hypothesis keq_trans : forall a b c, keq a b = true -> keq b c = true -> keq a c = true.
  Hypothesis Hhash : forall a b, keq a b = true -> hash a = hash b.
  Hypothesis Hbc : (0 < bc)%nat.
  Hypothesis HE : (0 < E)%nat.
  Hypothesis Hmax : Z.of_nat (bc + E) <= INT_MAX.
  Notation n := (bc + E)%nat.
  Notation bkt := (bkt hash bc).
  Implicit Types (s : cshared V) (t : cthread K V) (ls : list (cthread K V)) (G : list (option V * list (nat * V))) (F : list nat) (g : option V * list (nat * V)).
  Context (M0 : list V).
  Notation cinv := (cinv kf hash keq bc E M0).
  Notation step := (ustep kf hash keq bc E).
  Notation L0 := (replicate n false).
  Let ustep_inv' := ustep_inv kf hash keq bc E keq_refl keq_sym keq_trans Hhash Hbc HE Hmax M0.
  Let step_log' := step_log kf hash keq bc E keq_refl keq_sym keq_trans Hhash Hbc HE Hmax M0.
  Let occupied_where' := occupied_where kf hash keq bc E keq_refl keq_sym keq_trans Hhash Hbc HE Hmax M0.

  (** *** distinct keys *)
  Lemma content_distinct s ls G F : cinv s ls G F -> keys_distinct kf keq (M0 ++ (ls ≫= fun t => (ins t).*2)).
  Proof using All.
    intros I. eapply (kd_perm_iff kf hash keq true (seq 0) (fun n => reflexivity _) keq_refl keq_sym keq_trans Hhash bc E Hbc HE Hmax); [apply (ci_cons _ _ _ _ _ _ _ _ _ _ I)|].
    eapply (content_kd_of kf hash keq true (seq 0) (fun n => reflexivity _) keq_refl keq_sym keq_trans Hhash bc E Hbc HE Hmax); [apply (ci_bkt _ _ _ _ _ _ _ _ _ _ I)|apply (ci_kd _ _ _ _ _ _ _ _ _ _ I)].
  Qed.
  Lemma content_in G p v : in_list G p v -> v ∈ G ≫= gvals.
  Proof. intros (b & g & Hg & Hp). apply elem_of_list_bind. exists g. split; [eapply in_list_val; eauto|]. eapply elem_of_list_lookup_2; exact Hg. Qed.
  Lemma in_content G v : v ∈ G ≫= gvals -> exists p, in_list G p v.
  Proof.
    intros Hv. apply elem_of_list_bind in Hv as (g & Hv & Hg). apply elem_of_list_lookup in Hg as [b Hg]. unfold gvals in Hv. apply elem_of_app in Hv as [Hv|Hv].
    - exists b, b, g. split; [exact Hg|]. left. split; [reflexivity|]. destruct g.1; [|inversion Hv]. apply elem_of_list_singleton in Hv as ->. reflexivity.
    - apply elem_of_list_fmap in Hv as ([p w] & -> & Hp). exists p, b, g. auto.
  Qed.

  (** *** free entries *)
  Lemma lvc_nonneg p t : 0 <= lvc kf hash bc p t.
  Proof. unfold lvc, at_. destruct (c_pc t); try lia; case_decide; lia. Qed.
  Lemma count_room s ls G F : cinv s ls G F -> c_count s + Z.of_nat (length F) <= Z.of_nat n.
  Proof using All.
    intros I. set (isb := fun t => match c_pc t with ISetB => 1 | _ => 0 end). set (hd := fun g : option V * list (nat * V) => Z.b2z (is_some g.1)).
    assert (H1 : Z.of_nat (length (G ≫= gvals)) = sumZ hd G + Z.of_nat (length (G ≫= gpos))).
    { rewrite <- !sumZ_bind_length. rewrite <- sumZ_add. apply sumZ_ext. intros g _. unfold gvals, gpos, hd. rewrite app_length, !fmap_length. destruct g.1; cbn; lia. }
    assert (H2 : sumZ pend ls <= sumZ isb ls + Z.of_nat (length (ls ≫= hand))).
    { rewrite <- sumZ_bind_length. rewrite <- sumZ_add. apply sumZ_le. intros t _. unfold pend, isb, hand. destruct (c_pc t); cbn; lia. }
    assert (H3 : (length (G ≫= gpos) + (length (ls ≫= hand) + length F) = E)%nat).
    { pose proof (Permutation_length (ci_perm _ _ _ _ _ _ _ _ _ _ I)) as H. rewrite !app_length, seq_length in H. exact H. }
    assert (H4 : sumZ isb ls <= sumZ (fun t => sumZ (fun b => lvc kf hash bc b t) (seq 0 bc)) ls).
    { apply sumZ_le. intros t Ht. unfold isb. destruct (c_pc t) eqn:Epc; try (apply sumZ_nonneg; intros; apply lvc_nonneg).
      assert (Hne : c_prog t <> []). { intros H0. pose proof (ci_tl _ _ _ _ _ _ _ _ _ _ I t Ht) as [[_ T] _]. rewrite H0, Epc in T. discriminate. }
      pose proof (cf_tb kf hash keq bc E keq_refl keq_sym keq_trans Hhash Hbc HE Hmax M0 s ls G F I t Hne) as Hb.
      rewrite (sumZ_ext _ (fun b => at_ b (tb kf hash bc t))) by (intros b _; unfold lvc; rewrite Epc; reflexivity). rewrite sumZ_seq_at by exact Hb. lia. }
    rewrite sumZ_swap in H4.
    assert (H5 : sumZ (fun b => sumZ (fun t => lvc kf hash bc b t) ls) (seq 0 bc) + sumZ hd G <= Z.of_nat bc).
    { rewrite (sumZ_lookup hd), (ci_lg _ _ _ _ _ _ _ _ _ _ I), <- sumZ_add.
      transitivity (sumZ (fun _ : nat => 1) (seq 0 bc)); [|rewrite sumZ_one, seq_length; lia].
      apply sumZ_le. intros b Hb. apply elem_of_seq in Hb. destruct (cf_bucket kf hash keq bc E keq_refl keq_sym keq_trans Hhash Hbc HE Hmax M0 s ls G F I b ltac:(lia)) as [g Hg]. rewrite Hg.
      pose proof (ci_live _ _ _ _ _ _ _ _ _ _ I b ltac:(lia)) as HL. destruct (ci_head _ _ _ _ _ _ _ _ _ _ I b g Hg) as [Ho _]. unfold lk in HL. rewrite Ho in HL.
      assert (Hl : live (lkd (c_values s) b) <= 1) by (destruct (lkd (c_values s) b); cbn; lia). unfold hd. 
      assert (E0 : sumZ (fun t => lvc kf hash bc b t) ls = sumZ (lvc kf hash bc b) ls) by reflexivity. rewrite E0. cbn in HL. lia. }
    rewrite (ci_count _ _ _ _ _ _ _ _ _ _ I). lia.
  Qed.
  Lemma excess_room s ls G F : cinv s ls G F -> 1 <= q_c (c_ex s) -> (0 < length F)%nat.
  Proof using All.
    intros I Hc. pose proof (ci_vec _ _ _ _ _ _ _ _ _ _ I) as J. pose proof (i_net _ _ _ _ _ _ J 0%nat HE) as H1. pose proof (i_live _ _ _ _ _ _ J 0%nat HE) as H2.
    assert (Hpp : sumZ (pp 0) (proj <$> ls) = 0).
    { apply sumZ_zero. intros q Hq. apply elem_of_list_fmap in Hq as (t & -> & Ht). pose proof (ci_tl _ _ _ _ _ _ _ _ _ _ I t Ht) as [[_ T1] _].
      unfold proj. destruct (c_pc t) eqn:Epc; try reflexivity. destruct (c_prog t) as [|op rest] eqn:Ep; [discriminate|].
      destruct (cf_bucket kf hash keq bc E keq_refl keq_sym keq_trans Hhash Hbc HE Hmax M0 s ls G F I (bkt (tkey kf op))) as [g Hg]; [apply (bucket_of_bkt hash keq bc E keq_refl keq_sym keq_trans Hhash Hbc HE Hmax)|].
      specialize (T1 g Hg). destruct op; [|contradiction..]. destruct T1 as (_ & Eq & _). unfold pp, pushing. rewrite Eq. destruct (q_pc q) as [| | | | | | | | |? [|]]; reflexivity. }
    assert (Hpq : 0 <= sumZ (pq 0) (proj <$> ls)) by (apply sumZ_nonneg; intros; apply pq_nonneg).
    assert (Hlv : 0 <= sumZ (lv 0) (proj <$> ls)) by (apply sumZ_nonneg; intros; apply lv_nonneg).
    unfold vm in H1. rewrite (proj2 (Z.ltb_lt _ _)) in H1 by (cbn; lia).
    pose proof (i_cons _ _ _ _ _ _ J (fun _ => 1)) as H3. cbn beta in H3. rewrite sumZ_one, fmap_length in H3.
    rewrite (sumZ_zero (wpush _)) in H3 by (intros q Hq; eapply (proj_nopush kf hash keq bc E keq_refl keq_sym keq_trans Hhash Hbc HE Hmax M0); eauto).
    assert (H4 : 0 <= sumZ (wpop (fun _ => 1)) (proj <$> ls)) by (apply sumZ_nonneg; intros q _; apply sumZ_nonneg; intros; lia).
    assert (H5 : live (lkd (q_data (c_ex s)) 0) = 1). { destruct (lk (q_occ (c_ex s)) 0); cbn in H1; [|lia]. destruct (lkd (q_data (c_ex s)) 0); cbn in *; lia. }
    assert (H6 : 1 <= sumZ (wd (fun _ => 1)) (q_data (c_ex s))).
    { unfold lkd in H5. destruct (q_data (c_ex s)) as [|[x|] d]; [discriminate| |discriminate]. cbn [sumZ wd]. pose proof (sumZ_nonneg (wd (fun _ : Z => 1)) d) as H7. cut (0 <= sumZ (wd (fun _ : Z => 1)) d); [lia|].
      apply H7. intros [|] _; cbn; lia. }
    lia.
  Qed.

  (** *** inserts with enough room *)
  Definition inserts (prog : list (cop K V)) : Z := sumZ (fun op => match op with CInsert _ => 1 | _ => 0 end) prog.
  Definition need t : Z := inserts (c_prog t) - took t.
  Definition budget s ls : Prop := sumZ need ls <= q_c (c_ex s) <= Z.of_nat E.
  Lemma need_nonneg t : 0 <= need t.
  Proof.
    unfold need, took. assert (H : forall prog, 0 <= inserts prog) by (intros prog; apply sumZ_nonneg; intros []; lia). destruct (c_prog t) as [|[v|k|k] rest].
    - cbn. lia.
    - change (inserts (CInsert v :: rest)) with (1 + inserts rest). specialize (H rest). repeat case_match; lia.
    - change (inserts (CErase k :: rest)) with (0 + inserts rest). specialize (H rest). lia.
    - change (inserts (CFind k :: rest)) with (0 + inserts rest). specialize (H rest). lia.
  Qed.
  Lemma budget_need s ls i t : budget s ls -> ls !! i = Some t -> need t <= q_c (c_ex s).
  Proof. intros [H _] Hi. pose proof (sumZ_ge_elem need ls i t (fun l _ => need_nonneg l) Hi). lia. Qed.
  Lemma budget_upd s ls i t s' t' : budget s ls -> ls !! i = Some t -> need t' - need t <= q_c (c_ex s') - q_c (c_ex s) -> q_c (c_ex s') <= q_c (c_ex s) -> budget s' (<[i := t']> ls).
  Proof. intros [H1 H2] Hi H3 H4. unfold budget. rewrite (sumZ_insert _ _ _ _ _ Hi). lia. Qed.
  Lemma budget_step s ls G F i t s' t' : cinv s ls G F -> budget s ls -> ls !! i = Some t -> step i s t = Some (s', t') -> budget s' (<[i := t']> ls).
  Proof using All.
    intros I B Hi Hst. pose proof (budget_need s ls i t B Hi) as Hn. pose proof (ci_tl _ _ _ _ _ _ _ _ _ _ I t (elem_of_list_lookup_2 _ _ _ Hi)) as [[T1 T2] _].
    destruct (c_prog t) as [|op rest] eqn:Ep; [unfold ustep in Hst; rewrite Ep in Hst; discriminate|].
    destruct (bucket_of_bkt hash keq bc E keq_refl keq_sym keq_trans Hhash Hbc HE Hmax (tkey kf op)) as [Eb Hb].
    destruct (cf_bucket kf hash keq bc E keq_refl keq_sym keq_trans Hhash Hbc HE Hmax M0 s ls G F I _ Hb) as [g Hg]. specialize (T2 g Hg). unfold tkey in *.
    assert (Hrest : forall t2, c_prog t2 = rest -> c_pc t2 = UIdle -> need t2 = inserts rest).
    { intros t2 E1 E2. unfold need, took. rewrite E1, E2. destruct rest as [|[]]; lia. }
    assert (Hfin : forall r, need (cfinish t op r) = inserts rest) by (intros r; apply Hrest; cbn [cfinish c_prog c_pc]; rewrite ?Ep; reflexivity).
    assert (Hres : forall s2 t2, c_ex s2 = c_ex s -> need t2 <= need t -> budget s2 (<[i := t2]> ls)).
    { intros s2 t2 E1 E2. eapply budget_upd; [exact B|exact Hi|rewrite E1; lia|rewrite E1; lia]. }
    destruct op as [v|k|k]; [|exfalso; apply (T1 (CErase k)); left|].
    - assert (Hgo : forall pc, need (cgo t pc) = 1 + inserts rest - match pc with IPop _ q => match q_pc q with QIdle | QCtl _ => 0 | _ => 1 end | IConL _ _ | IOffL _ _ | ICntL _ _ | ISetL _ _ | ILinkL _ _ | IUnlL _ (Some _) => 1 | _ => 0 end).
      { intros pc. unfold need, took. cbn [cgo c_prog c_pc]. rewrite Ep. reflexivity. }
      assert (Hself : need t = need (cgo t (c_pc t))) by reflexivity. rewrite Hgo in Hself.
      unfold ustep in Hst. rewrite Ep, Eb in Hst.
      destruct (c_pc t) eqn:Epc; cbn [knows_ins] in T2; try contradiction.
      all: try solve [repeat case_match; try discriminate; injection Hst as <- <-; (apply Hres; [reflexivity|]); unfold after_find, after_end, again; repeat case_match; rewrite ?Hfin, ?Hgo, Hself; cbn [pop_call q_pc]; lia].
      destruct T2 as (_ & Eq & El). assert (Hqi : q ∈ proj <$> ls) by (apply elem_of_list_fmap; exists t; split; [unfold proj; rewrite Epc; reflexivity|eapply elem_of_list_lookup_2; exact Hi]).
      destruct (i_tok _ _ _ _ _ _ (ci_vec _ _ _ _ _ _ _ _ _ _ I) q Hqi) as [_ Hok].
      assert (Hin : 0 <= inserts rest) by (apply sumZ_nonneg; intros []; lia). destruct B as [B1 B2].
      assert (Hq : forall s2 t2, (q_c (c_ex s2) = q_c (c_ex s) /\ need t2 <= need t \/ q_c (c_ex s2) = q_c (c_ex s) - 1 /\ need t2 <= need t - 1) -> budget s2 (<[i := t2]> ls)).
      { intros s2 t2 Hor. apply (budget_upd s ls i t); [split; assumption|exact Hi|lia|lia]. }
      destruct (qstep (vctl E) i (c_ex s) q) as [[x q']|] eqn:Eqs; [|discriminate]. unfold qstep in Eqs. rewrite Eq in Eqs.
      destruct (q_pc q) eqn:Eqp; cbn [kind_of] in Eqs.
      + injection Eqs as <- <-. cbn [goto q_prog q_log] in Hst. rewrite Eq in Hst. injection Hst as <- <-. apply Hq. left. split; [reflexivity|]. rewrite Hgo. cbn [goto q_pc]. lia.
      + unfold vctl in Eqs. rewrite Hself in Hn. destruct n as [|m].
        * unfold clamp_size in Eqs. rewrite (proj2 (Z.ltb_ge _ _)) in Eqs by lia. rewrite (proj2 (Z.ltb_ge (Z.of_nat E) _)) in Eqs by lia. rewrite (proj2 (Z.eqb_neq _ _)) in Eqs by lia.
          injection Eqs as <- <-. cbn [goto q_prog q_log] in Hst. rewrite Eq in Hst. injection Hst as <- <-. apply Hq. left. split; [reflexivity|]. rewrite Hgo. cbn [goto q_pc]. lia.
        * rewrite (proj2 (Z.leb_le _ _)) in Eqs by lia. rewrite (proj2 (Z.ltb_lt _ _)) in Eqs by lia. cbn [andb] in Eqs.
          injection Eqs as <- <-. cbn [goto q_prog q_log] in Hst. rewrite Eq in Hst. injection Hst as <- <-. apply Hq. right. split; [reflexivity|]. rewrite Hgo. cbn [goto q_pc]. lia.
      + destruct (q_locks (c_ex s) !! pos) as [[|]|]; [| |discriminate]; injection Eqs as <- <-; cbn [goto q_prog q_log] in Hst; rewrite Eq in Hst; injection Hst as <- <-; (apply Hq); left; (split; [reflexivity|]); rewrite Hgo; cbn [goto q_pc]; rewrite ?Eqp; lia.
      + destruct (q_occ (c_ex s) !! pos) as [b|]; [|discriminate]; injection Eqs as <- <-; cbn [goto q_prog q_log] in Hst; rewrite Eq in Hst; injection Hst as <- <-; (apply Hq); left; (split; [reflexivity|]); rewrite Hgo; cbn [goto q_pc]; destruct b; lia.
      + discriminate.
      + discriminate.
      + injection Eqs as <- <-; cbn [goto q_prog q_log] in Hst; rewrite Eq in Hst; injection Hst as <- <-; (apply Hq); left; (split; [reflexivity|]); rewrite Hgo; cbn [goto q_pc]; lia.
      + destruct (q_data (c_ex s) !! pos) as [[y|]|]; [|discriminate..]. injection Eqs as <- <-; cbn [goto q_prog q_log] in Hst; rewrite Eq in Hst; injection Hst as <- <-; (apply Hq); left; (split; [reflexivity|]); rewrite Hgo; cbn [goto q_pc]; lia.
      + injection Eqs as <- <-; cbn [goto q_prog q_log] in Hst; rewrite Eq in Hst; injection Hst as <- <-; (apply Hq); left; (split; [reflexivity|]); rewrite Hgo; cbn [goto q_pc]; lia.
      + destruct r as [r|].
        * injection Eqs as <- <-. cbn [finish q_prog q_log] in Hst. rewrite Eq, El in Hst. cbn [tail app last] in Hst. destruct Hok as (_ & _ & Hok). destruct r as [y|y| |]; [|clear Hok|contradiction..].
          { destruct Hok as (k' & rest' & E0). rewrite Eq in E0. discriminate. }
          destruct (0 <=? y); [|discriminate]. injection Hst as <- <-. apply Hq. left. split; [reflexivity|]. rewrite Hgo. lia.
        * injection Eqs as <- <-; cbn [goto q_prog q_log] in Hst; rewrite Eq in Hst; injection Hst as <- <-; (apply Hq); left; (split; [reflexivity|]); rewrite Hgo; cbn [goto q_pc]; lia.
    - assert (Hgo : forall pc, need (cgo t pc) = need t) by (intros pc; unfold need, took; cbn [cgo c_prog c_pc]; rewrite Ep; reflexivity).
      assert (Hself : need t = inserts rest) by (unfold need, took; rewrite Ep; change (inserts (CFind k :: rest)) with (0 + inserts rest); lia).
      unfold ustep in Hst. rewrite Ep, Eb in Hst.
      destruct (c_pc t) eqn:Epc; cbn [knows_find] in T2; try contradiction; try (destruct c; try contradiction).
      all: repeat case_match; try discriminate; injection Hst as <- <-; (apply Hres; [reflexivity|]); unfold after_find; repeat case_match; rewrite ?Hfin, ?Hgo; lia.
  Qed.
  (** with enough room an insert is only refused because of an equal key *)
  Lemma budget_log s ls G F i t s' t' v : cinv s ls G F -> budget s ls -> ls !! i = Some t -> step i s t = Some (s', t') -> c_log t' = c_log t ++ [(CInsert v, RNotInserted)] ->
    exists p w, stored_at s p w /\ keq (kf w) (kf v) = true.
  Proof using All.
    intros I B Hi Hst Hl. destruct (step_log' s ls G F i t s' t' I Hi Hst) as [[El _]|(op & r & El & Ep & Hr & _ & Ht)].
    - rewrite El in Hl. apply (f_equal length) in Hl. rewrite app_length in Hl. cbn in Hl. lia.
    - rewrite El in Hl. apply app_inv_head in Hl. injection Hl as -> ->. specialize (Ht eq_refl).
      pose proof (budget_need s ls i t B Hi) as Hn. unfold need in Hn. rewrite Ht, Ep in Hn. change (inserts (CInsert v :: c_prog t')) with (1 + inserts (c_prog t')) in Hn.
      assert (Hin : 0 <= inserts (c_prog t')) by (apply sumZ_nonneg; intros []; lia). destruct B as [_ B2].
      destruct Hr as [Hr|[Hr|Hr]]; [| |exact Hr]; exfalso.
      + pose proof (count_room s ls G F I) as H1. pose proof (excess_room s ls G F I ltac:(lia)) as H2. rewrite (ci_lo _ _ _ _ _ _ _ _ _ _ I) in Hr. lia.
      + unfold clamp_size in Hr. destruct (Z.ltb_spec (q_c (c_ex s)) 0); [lia|]. destruct (Z.ltb_spec (Z.of_nat E) (q_c (c_ex s))); lia.
  Qed.
  Definition refused_ok s ls : Prop := forall t v, t ∈ ls -> (CInsert v, RNotInserted) ∈ c_log t -> exists p w, stored_at s p w /\ keq (kf w) (kf v) = true.
  Lemma budget_reach s ls G F s' ls' : cinv s ls G F -> budget s ls -> refused_ok s ls -> Conc.reach step (s, ls) (s', ls') -> budget s' ls' /\ refused_ok s' ls'.
  Proof using All.
    intros I B Hf R. remember (s, ls) as c eqn:Ec. remember (s', ls') as c' eqn:Ec'. revert s ls G F s' ls' I B Hf Ec Ec'. induction R as [c|c c1 c2 Hs R IH]; intros; subst.
    - injection Ec' as <- <-. auto.
    - inversion Hs as [s0 ls0 i t s1 t1 Hi Hst]; subst. destruct (ustep_inv' _ _ _ _ _ _ _ _ I Hi Hst) as (G1 & F1 & I1 & X1 & M1).
      eapply (IH _ _ _ _ _ _ I1); [exact (budget_step _ _ _ _ _ _ _ _ I B Hi Hst)| |reflexivity|reflexivity]. intros tj v Hj Hp.
      assert (Hm : (exists p w, stored_at s p w /\ keq (kf w) (kf v) = true) -> exists p w, stored_at s1 p w /\ keq (kf w) (kf v) = true) by (intros (p & w & H1 & H2); exists p, w; auto).
      apply elem_of_list_lookup in Hj as [j Hj]. apply list_lookup_insert_Some in Hj as [(_ & <- & _)|[_ Hj]].
      + apply Hm. destruct (step_log' s ls G F i t s1 t1 I Hi Hst) as [[El _]|(op & r & El & _)].
        * rewrite El in Hp. eapply Hf; [eapply elem_of_list_lookup_2; exact Hi|exact Hp].
        * pose proof El as El2. rewrite El in Hp. apply elem_of_app in Hp as [Hp|Hp]; [eapply Hf; [eapply elem_of_list_lookup_2; exact Hi|exact Hp]|]. apply elem_of_list_singleton in Hp. injection Hp as <- <-.
          exact (budget_log _ _ _ _ _ _ _ _ _ I B Hi Hst El2).
      + apply Hm. eapply Hf; [eapply elem_of_list_lookup_2; exact Hj|exact Hp].
  Qed.

  (** *** no call running *)
  Lemma quiet_urep s ls G F (indices : list Z) : cinv s ls G F -> c_quiescent ls -> 0 <= q_c (c_ex s) <= Z.of_nat E -> length indices = n ->
    exists st, urep kf hash keq true bc E L0 (utab_of bc indices s) G st.
  Proof using All.
    intros I Hq Hc Hn. pose proof (ci_vec _ _ _ _ _ _ _ _ _ _ I) as J.
    assert (Hz : forall t, t ∈ ls -> hand t = [] /\ (forall p, lvc kf hash bc p t = 0) /\ (forall p, holds_lock kf hash bc p t = 0) /\ pend t = 0 /\ proj t = fresh_call []).
    { intros t Ht. unfold hand, lvc, holds_lock, lock_of, pend, proj. rewrite (Hq t Ht). auto. }
    assert (Hproj : forall q, q ∈ proj <$> ls -> q = fresh_call []) by (intros q Hq2; apply elem_of_list_fmap in Hq2 as (t & -> & Ht); apply Hz; exact Ht).
    destruct (at_rest E vm (fun _ => True) _ _ _ J) as [Hr _]; [intros q Hq2; rewrite (Hproj q Hq2); reflexivity|].
    destruct (i_len _ _ _ _ _ _ J) as (D1 & D2 & D3).
    assert (Hpre : length (SlotSpec.stored (q_data (c_ex s))) = Z.to_nat (q_c (c_ex s)) /\ forall p, (p < E)%nat -> q_data (c_ex s) !! p = Some (SlotSpec.stored (q_data (c_ex s)) !! p)).
    { rewrite <- D1. apply prefix_stored; [lia|]. intros p Hp. rewrite D1 in Hp. destruct (Hr p Hp) as (_ & H1 & H2). rewrite H2, H1. unfold vm. destruct (Z.ltb_spec (Z.of_nat p) (q_c (c_ex s))), (Nat.ltb_spec p (Z.to_nat (q_c (c_ex s)))); lia. }
    destruct Hpre as [P1 P2].
    assert (HF : Z.of_nat <$> F ≡ₚ SlotSpec.stored (q_data (c_ex s))).
    { apply sumZ_perm. intros w. rewrite sumZ_stored. pose proof (i_cons _ _ _ _ _ _ J w) as H. cbn beta in H.
      rewrite (sumZ_zero (wpush w)) in H by (intros q Hq2; rewrite (Hproj q Hq2); apply wpush_fresh). rewrite (sumZ_zero (wpop w)) in H by (intros q Hq2; rewrite (Hproj q Hq2); apply wpop_fresh). lia. }
    set (st := Z.to_nat <$> SlotSpec.stored (q_data (c_ex s))).
    assert (Hst : Z.of_nat <$> st = SlotSpec.stored (q_data (c_ex s))).
    { unfold st. rewrite <- list_fmap_compose. rewrite <- (list_fmap_id (SlotSpec.stored (q_data (c_ex s)))) at 2. apply list_fmap_ext. intros j z Hj. cbn.
      assert (Hin : z ∈ Z.of_nat <$> F) by (rewrite HF; eapply elem_of_list_lookup_2; exact Hj). apply elem_of_list_fmap in Hin as (m & -> & _). lia. }
    assert (HstF : st ≡ₚ F). { unfold st. rewrite <- HF. rewrite <- list_fmap_compose. rewrite (list_fmap_ext _ id F); [rewrite list_fmap_id; reflexivity|]. intros j x _. cbn. unfold id. lia. }
    assert (Hocc : forall p, c_occ s !! p = is_some <$> c_values s !! p).
    { intros p. destruct (decide (p < n)%nat) as [Hp|Hp].
      - pose proof (ci_live _ _ _ _ _ _ _ _ _ _ I p Hp) as H. rewrite sumZ_zero in H by (intros t Ht; apply (Hz t Ht)). unfold lkd, lk in H.
        destruct (lookup_lt_is_Some_2 (c_values s) p) as [o Ho]; [rewrite (ci_lv _ _ _ _ _ _ _ _ _ _ I); exact Hp|]. destruct (lookup_lt_is_Some_2 (c_occ s) p) as [b Hb]; [rewrite (ci_lo _ _ _ _ _ _ _ _ _ _ I); exact Hp|].
        rewrite Ho, Hb in *. cbn. destruct o, b; cbn in *; try lia; reflexivity.
      - rewrite !lookup_ge_None_2; [reflexivity|rewrite (ci_lv _ _ _ _ _ _ _ _ _ _ I); lia|rewrite (ci_lo _ _ _ _ _ _ _ _ _ _ I); lia]. }
    assert (Hhand : ls ≫= hand = []).
    { clear -Hz. induction ls as [|t l IH]; [reflexivity|]. change ((t :: l) ≫= hand) with (hand t ++ (l ≫= hand)). rewrite IH by (intros t' H; apply Hz; right; exact H). rewrite (proj1 (Hz t ltac:(left))). reflexivity. }
    exists st. split; cbn [utab_of u_bc u_values u_off u_occ u_indices u_locks u_count u_excess u_ev].
    - reflexivity.
    - apply (ci_lv _ _ _ _ _ _ _ _ _ _ I).
    - apply (ci_lf _ _ _ _ _ _ _ _ _ _ I).
    - apply (ci_lo _ _ _ _ _ _ _ _ _ _ I).
    - exact Hn.
    - apply list_eq. intros p. destruct (decide (p < n)%nat) as [Hp|Hp].
      + rewrite lookup_replicate_2 by exact Hp. pose proof (ci_lock _ _ _ _ _ _ _ _ _ _ I p Hp) as H. rewrite sumZ_zero in H by (intros t Ht; apply (Hz t Ht)). unfold lk in H.
        destruct (lookup_lt_is_Some_2 (c_locks s) p) as [b Hb]; [rewrite (ci_ll _ _ _ _ _ _ _ _ _ _ I); exact Hp|]. rewrite Hb in *. destruct b; [discriminate|reflexivity].
      + rewrite !lookup_ge_None_2; [reflexivity|rewrite replicate_length; lia|rewrite (ci_ll _ _ _ _ _ _ _ _ _ _ I); lia].
    - apply replicate_length.
    - apply (ci_lg _ _ _ _ _ _ _ _ _ _ I).
    - rewrite HstF. pose proof (ci_perm _ _ _ _ _ _ _ _ _ _ I) as H. rewrite Hhand in H. exact H.
    - intros b g Hg. destruct (ci_head _ _ _ _ _ _ _ _ _ _ I b g Hg) as [H1 H2]. destruct g.1 as [h|] eqn:E1; [apply H2; reflexivity|]. rewrite Hocc in H1.
      destruct (c_values s !! b) as [[|]|]; [discriminate|reflexivity|discriminate].
    - apply (ci_link _ _ _ _ _ _ _ _ _ _ I).
    - intros b g p v Hg Hp. apply (ci_chain _ _ _ _ _ _ _ _ _ _ I b g p v Hg Hp).
    - intros p Hp. rewrite HstF in Hp. pose proof (ci_free _ _ _ _ _ _ _ _ _ _ I p Hp) as H1. rewrite Hocc in H1. destruct (c_values s !! p) as [[|]|]; [discriminate|reflexivity|discriminate].
    - exact Hocc.
    - apply (ci_off _ _ _ _ _ _ _ _ _ _ I).
    - rewrite (ci_count _ _ _ _ _ _ _ _ _ _ I). rewrite sumZ_zero by (intros t Ht; apply (Hz t Ht)). lia.
    - rewrite Hst. split; cbn [as_vec v_n v_data v_occ v_locks v_ev].
      + lia.
      + lia.
      + exact D1.
      + exact D2.
      + apply list_eq. intros p. destruct (decide (p < E)%nat) as [Hp|Hp].
        * rewrite lookup_replicate_2 by exact Hp. destruct (Hr p Hp) as [H _]. unfold lk in H. destruct (lookup_lt_is_Some_2 (q_locks (c_ex s)) p) as [b Hb]; [lia|]. rewrite Hb in H. cbn in H. rewrite Hb, H. reflexivity.
        * rewrite !lookup_ge_None_2; [reflexivity|rewrite replicate_length; lia|lia].
      + exact P2.
      + intros p Hp. destruct (Hr p Hp) as (_ & H & _). unfold lk in H. destruct (lookup_lt_is_Some_2 (q_occ (c_ex s)) p) as [b Hb]; [lia|]. rewrite Hb in H. cbn in H. rewrite Hb. f_equal. rewrite P1. unfold vm in H.
        destruct (Z.ltb_spec (Z.of_nat p) (q_c (c_ex s))); [rewrite bool_decide_eq_true_2 by lia|rewrite bool_decide_eq_false_2 by lia]; destruct b; cbn in H; try lia; reflexivity.
      + discriminate.
    - apply (ci_bkt _ _ _ _ _ _ _ _ _ _ I).
    - apply (ci_kd _ _ _ _ _ _ _ _ _ _ I).
    - discriminate.
  Qed.
End quiet.
