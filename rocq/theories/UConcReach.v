(** Concurrent inserts and lookups on the unordered containers: consequences of the invariant of UConcProofs.v. *)
From Verif Require Import Base Conc SlotModel SlotSpec SlotProofs VectorModel VectorProofs VectorConcProofs HashProofs UnorderedModel UnorderedSpec UnorderedProofs UConcModel UConcProofs.

Local Arguments pushed_by : simpl never.
Local Arguments popped_by : simpl never.

(** *** the excess list of the start state *)
Lemma vec_start (E : nat) (u : vec Z) (st : list nat) : vrep true E u (Z.of_nat <$> st) ->
    {| q_c := v_n u; q_data := v_data u; q_occ := v_occ u; q_locks := v_locks u |} = vec_conc_start E (Z.of_nat <$> st).
  Proof.
    intros R. pose proof (r_le _ _ _ _ R) as Hle. unfold vec_conc_start. f_equal.
    - apply (r_n _ _ _ _ R).
    - apply list_eq. intros p. destruct (decide (p < E)%nat) as [Hp|Hp].
      + rewrite (r_data _ _ _ _ R) by exact Hp. destruct (decide (p < length (Z.of_nat <$> st))%nat) as [H|H].
        * rewrite lookup_app_l by (rewrite fmap_length; exact H). rewrite (list_lookup_fmap Some). destruct (lookup_lt_is_Some_2 (Z.of_nat <$> st) p H) as [x ->]. reflexivity.
        * rewrite lookup_app_r by (rewrite fmap_length; lia). rewrite lookup_replicate_2 by (rewrite !fmap_length in *; lia). rewrite lookup_ge_None_2 by lia. reflexivity.
      + rewrite !lookup_ge_None_2; [reflexivity|rewrite app_length, replicate_length, !fmap_length in *; lia|rewrite (r_ld _ _ _ _ R); lia].
    - apply list_eq. intros p. destruct (decide (p < E)%nat) as [Hp|Hp].
      + rewrite (r_occ _ _ _ _ R) by exact Hp. destruct (decide (p < length (Z.of_nat <$> st))%nat) as [H|H].
        * rewrite lookup_app_l by (rewrite replicate_length; exact H). rewrite lookup_replicate_2 by exact H. rewrite bool_decide_eq_true_2 by exact H. reflexivity.
        * rewrite lookup_app_r by (rewrite replicate_length; lia). rewrite lookup_replicate_2 by (rewrite replicate_length; lia). rewrite bool_decide_eq_false_2 by exact H. reflexivity.
      + rewrite !lookup_ge_None_2; [reflexivity|rewrite app_length, !replicate_length; lia|rewrite (r_lo _ _ _ _ R); lia].
    - apply (r_locks _ _ _ _ R).
  Qed.

Section reach.
  Context {K V : Type} (kf : V -> K) (hash : K -> Z) (keq : K -> K -> bool) (bc E : nat).
  Hypothesis keq_refl : forall a, keq a a = true.
  Hypothesis keq_sym : forall a b, keq a b = true -> keq b a = true.
  Hypothesis keq_trans : forall a b c, keq a b = true -> keq b c = true -> keq a c = true.
  Hypothesis Hhash : forall a b, keq a b = true -> hash a = hash b.
  Hypothesis Hbc : (0 < bc)%nat.
  Hypothesis HE : (0 < E)%nat.
  Hypothesis Hmax : Z.of_nat (bc + E) <= INT_MAX.
  Notation n := (bc + E)%nat.
  Notation bkt := (bkt hash bc).
  Implicit Types (s : cshared V) (t : cthread K V) (ls : list (cthread K V)) (G : list (option V * list (nat * V))) (F : list nat) (g : option V * list (nat * V)).
  Context (M0 : list V).
  Notation cinv := (cinv kf hash keq bc E M0).
  Notation step := (ustep kf hash keq bc E).
  Let ustep_inv' := ustep_inv kf hash keq bc E keq_refl keq_sym keq_trans Hhash Hbc HE Hmax M0.

  (** *** no call gets stuck *)
  Lemma progress s ls G F i t : cinv s ls G F -> ls !! i = Some t -> c_prog t <> [] -> exists s' t', step i s t = Some (s', t').
  Proof using All.
    intros I Hi Hne. pose proof (ci_tl _ _ _ _ _ _ _ _ _ _ I t (elem_of_list_lookup_2 _ _ _ Hi)) as [[T1 T2] Htp].
    destruct (c_prog t) as [|op rest] eqn:Ep; [congruence|]. clear Hne.
    destruct (bucket_of_bkt hash keq bc E keq_refl keq_sym keq_trans Hhash Hbc HE Hmax (tkey kf op)) as [Eb Hb]. unfold tkey in *.
    destruct (cf_bucket kf hash keq bc E keq_refl keq_sym keq_trans Hhash Hbc HE Hmax M0 s ls G F I _ Hb) as [g Hg]. specialize (T2 g Hg).
    assert (Hocc : forall j, (j < n)%nat -> exists o, c_occ s !! j = Some o) by (intros j Hj; apply lookup_lt_is_Some_2; rewrite (ci_lo _ _ _ _ _ _ _ _ _ _ I); exact Hj).
    assert (Hval : forall j, (j < n)%nat -> exists o, c_values s !! j = Some o) by (intros j Hj; apply lookup_lt_is_Some_2; rewrite (ci_lv _ _ _ _ _ _ _ _ _ _ I); exact Hj).
    assert (Hoff : forall j, (j < n)%nat -> exists o, c_off s !! j = Some o) by (intros j Hj; apply lookup_lt_is_Some_2; rewrite (ci_lf _ _ _ _ _ _ _ _ _ _ I); exact Hj).
    assert (Hlck : forall j, (j < n)%nat -> exists o, c_locks s !! j = Some o) by (intros j Hj; apply lookup_lt_is_Some_2; rewrite (ci_ll _ _ _ _ _ _ _ _ _ _ I); exact Hj).
    assert (Hbn : (bkt (op_key kf op) < n)%nat) by lia.
    assert (Hnode : forall p, p ∈ bkt (op_key kf op) :: gpos g -> (p < n)%nat) by (intros p Hp; exact (cf_node_range kf hash keq bc E keq_refl keq_sym keq_trans Hhash Hbc HE Hmax M0 s ls G F I _ g p Hg Hp)).
    assert (Hhand : forall p, p ∈ hand t -> (p < n)%nat) by (intros p Hp; pose proof (cf_hand_range kf hash keq bc E keq_refl keq_sym keq_trans Hhash Hbc HE Hmax M0 s ls G F I t p (elem_of_list_lookup_2 _ _ _ Hi) Hp); lia).
    assert (Hwalk : forall c pc, walk kf keq c g (bkt (op_key kf op)) (op_key kf op) pc -> (isL c = true -> g.1 <> None) ->
      match pc with
      | FOcc _ j => exists o : bool, c_occ s !! j = Some o
      | FVal _ j => exists v, c_values s !! j = Some (Some v)
      | FOff _ j => exists o : Z, c_off s !! j = Some o
      | FAdd _ j => exists (o : Z) j', c_off s !! j = Some o /\ next_entry j o = Some j'
      | _ => True
      end).
    { intros c pc Hw HL. destruct pc; try exact Logic.I.
      - apply Hocc, Hnode. eapply coming_node. apply Hw.
      - destruct (walk_val kf hash keq bc E keq_refl keq_sym keq_trans Hhash Hbc HE Hmax M0 s ls G F _ g _ c i0 I Hg Hw) as (v & Hv & _). eauto.
      - apply Hoff, Hnode. eapply seen_node. apply Hw.
      - destruct (walk_add kf hash keq bc E keq_refl keq_sym keq_trans Hhash Hbc HE Hmax M0 s ls G F _ g _ c i0 I Hg Hw) as (o & j & Ho & Hj & _). eauto. }
    unfold ustep. rewrite Ep, Eb. unfold hand in Hhand. unfold tkey in T2.
    destruct op as [v|k|k].
    - destruct (c_pc t) eqn:Epc; cbn [knows_ins] in T2; try contradiction; try (eexists _, _; reflexivity).
      + destruct T2 as [Tc Tw]. destruct (Hwalk c (FOcc c i0) Tw) as [o ->]; [destruct c; cbn in *; try discriminate; tauto|]. eauto.
      + destruct T2 as [Tc Tw]. destruct (Hwalk c (FVal c i0) Tw) as [o ->]; [destruct c; cbn in *; try discriminate; tauto|]. eauto.
      + destruct T2 as [Tc Tw]. destruct (Hwalk c (FOff c i0) Tw) as [o ->]; [destruct c; cbn in *; try discriminate; tauto|]. eauto.
      + destruct T2 as [Tc Tw]. destruct (Hwalk c (FAdd c i0) Tw) as (o & j & -> & ->); [destruct c; cbn in *; try discriminate; tauto|]. eauto.
      + destruct T2 as (_ & Hn & _). destruct (Hoff i0 (Hnode _ Hn)) as [o ->]. eauto.
      + destruct T2 as (_ & Hn & _ & Hnl). destruct (end_off kf hash keq bc E keq_refl keq_sym keq_trans Hhash Hbc HE Hmax M0 s ls G F _ g i0 I Hg Hn) as (o & -> & Hz & Hnz).
        destruct (decide (o = 0)) as [H0|H0]; [exfalso; auto|]. destruct (Hnz H0) as (_ & j & -> & _). eauto.
      + destruct (Hocc _ Hbn) as [o ->]. eauto.
      + destruct (Hlck _ Hbn) as [[|] ->]; eauto.
      + destruct (Hocc _ Hbn) as [o ->]. eauto.
      + destruct (Hval _ Hbn) as [o ->]. eauto.
      + destruct (Hocc _ Hbn) as [o ->]. eauto.
      + destruct (Hlck _ Hbn) as [o ->]. eauto.
      + destruct T2 as [_ Hn]. destruct (Hlck e (Hnode _ Hn)) as [[|] ->]; eauto.
      + destruct T2 as (Hrd & Eq & El). assert (Hpi : (proj <$> ls) !! i = Some q) by (rewrite list_lookup_fmap, Hi; cbn; unfold proj; rewrite Epc; reflexivity).
        destruct (not_stuck (vctl E) E vm (fun _ => True) _ _ _ _ _ (ci_vec _ _ _ _ _ _ _ _ _ _ I) Hpi) as (y & q' & Eqs); [rewrite Eq; discriminate|].
        rewrite Eqs. destruct (step_pop kf hash keq bc E keq_refl keq_sym keq_trans Hhash Hbc HE Hmax M0 s ls G F i t v rest g e q y q' I Hi Ep Hg Epc Hrd Eq El Eqs) as [(P1 & _)|[(P1 & P2 & _)|(p & F' & P1 & P2 & _)]]; rewrite P1; [eauto| |].
        * destruct (last (q_log q')) as [[]|]; eauto. exfalso. eapply P2. reflexivity.
        * rewrite P2. rewrite (proj2 (Z.leb_le 0 _)) by lia. eauto.
      + destruct (Hval p) as [o ->]; [apply Hhand; left|]. eauto.
      + destruct (Hoff p) as [o ->]; [apply Hhand; left|]. eauto.
      + destruct (Hocc p) as [o ->]; [apply Hhand; left|]. eauto.
      + destruct (Hoff e) as [o ->]; [apply Hnode; destruct T2 as (_ & _ & ->); apply lend_elem|]. eauto.
      + destruct (Hlck e (Hnode _ T2)) as [o ->]. eauto.
    - exfalso. apply (T1 (CErase k)). left.
    - destruct (c_pc t) eqn:Epc; cbn [knows_find] in T2; try contradiction; try (destruct c; try contradiction); try (eexists _, _; reflexivity).
      + destruct (Hwalk FUser (FOcc FUser i0) T2 ltac:(discriminate)) as [o ->]. eauto.
      + destruct (Hwalk FUser (FVal FUser i0) T2 ltac:(discriminate)) as [o ->]. eauto.
      + destruct (Hwalk FUser (FOff FUser i0) T2 ltac:(discriminate)) as [o ->]. eauto.
      + destruct (Hwalk FUser (FAdd FUser i0) T2 ltac:(discriminate)) as (o & j & -> & ->). eauto.
  Qed.

  (** *** where the occupied entries are *)
  Lemma occupied_where s ls G F p : cinv s ls G F -> c_occ s !! p = Some true ->
    exists v, stored_at s p v /\ (in_list G p v \/ exists t e rest, t ∈ ls /\ c_pc t = ILinkL e p /\ c_prog t = CInsert v :: rest).
  Proof using All.
    intros I Ho. assert (Hp : (p < n)%nat) by (rewrite <- (ci_lo _ _ _ _ _ _ _ _ _ _ I); eapply lookup_lt_Some; exact Ho).
    destruct (decide (p < bc)%nat) as [Hlt|Hge].
    - destruct (cf_bucket kf hash keq bc E keq_refl keq_sym keq_trans Hhash Hbc HE Hmax M0 s ls G F I _ Hlt) as [g Hg].
      destruct (ci_head _ _ _ _ _ _ _ _ _ _ I p g Hg) as [H1 H2]. rewrite H1 in Ho. destruct g.1 as [h|] eqn:E1; [|discriminate]. exists h. split; [split; auto|]. left. exists p, g. auto.
    - assert (Hin : p ∈ (G ≫= gpos) ++ (ls ≫= hand) ++ F) by (rewrite (ci_perm _ _ _ _ _ _ _ _ _ _ I); apply elem_of_seq; lia).
      apply elem_of_app in Hin as [Hin|Hin]; [|apply elem_of_app in Hin as [Hin|Hin]].
      + apply elem_of_list_bind in Hin as (g & Hin & Hg). apply elem_of_list_lookup in Hg as [b Hg]. unfold gpos in Hin. apply elem_of_list_fmap in Hin as ([q v] & -> & Hin).
        exists v. cbn. split; [eapply (ci_chain _ _ _ _ _ _ _ _ _ _ I); eauto|]. left. exists b, g. auto.
      + apply elem_of_list_bind in Hin as (t & Hin & Ht). pose proof (ci_tl _ _ _ _ _ _ _ _ _ _ I t Ht) as [[_ T2] Htp]. unfold tp in Htp. unfold hand in Hin.
        destruct (c_prog t) as [|op rest] eqn:Ep; [rewrite T2 in Hin; inversion Hin|].
        destruct (bucket_of_bkt hash keq bc E keq_refl keq_sym keq_trans Hhash Hbc HE Hmax (tkey kf op)) as [_ Hb].
        destruct (cf_bucket kf hash keq bc E keq_refl keq_sym keq_trans Hhash Hbc HE Hmax M0 s ls G F I _ Hb) as [g Hg]. specialize (T2 g Hg).
        destruct op as [v|k|k].
        2-3: exfalso; destruct (c_pc t); cbn in T2; try contradiction; try (destruct c; contradiction); inversion Hin.
        destruct (c_pc t) eqn:Epc; try (inversion Hin; fail); apply elem_of_list_singleton in Hin as ->.
        1-4: exfalso; intuition congruence.
        exists v. split; [split; tauto|]. right. exists t, e, rest. auto.
      + pose proof (ci_free _ _ _ _ _ _ _ _ _ _ I p Hin). congruence.
  Qed.
  Lemma in_list_stored s ls G F p v : cinv s ls G F -> in_list G p v -> stored_at s p v.
  Proof using All.
    intros I (b & g & Hg & [[-> H]|H]); [|eapply (ci_chain _ _ _ _ _ _ _ _ _ _ I); eauto]. destruct (ci_head _ _ _ _ _ _ _ _ _ _ I b g Hg) as [H1 H2]. rewrite H in H1. split; auto.
  Qed.
  Lemma in_list_val G p v b g : G !! b = Some g -> ((p = b /\ g.1 = Some v) \/ (p, v) ∈ g.2) -> v ∈ gvals g.
  Proof. intros _ [[_ H]|H]; unfold gvals; apply elem_of_app; [left; rewrite H; left|right; apply elem_of_list_fmap; exists (p, v); auto]. Qed.
  (** two entries of one list with equal keys are the same entry *)
  Lemma in_list_inj s ls G F p q v w : cinv s ls G F -> in_list G p v -> in_list G q w -> keq (kf v) (kf w) = true -> p = q.
  Proof using All.
    intros I (b & g & Hg & Hp) (b' & g' & Hg' & Hq) Hk.
    pose proof (ci_bkt _ _ _ _ _ _ _ _ _ _ I b g v Hg (in_list_val _ _ _ _ _ Hg Hp)) as B1. pose proof (ci_bkt _ _ _ _ _ _ _ _ _ _ I b' g' w Hg' (in_list_val _ _ _ _ _ Hg' Hq)) as B2.
    assert (b = b') as <-. { rewrite <- B1, <- B2. unfold UnorderedProofs.bkt. rewrite (Hhash _ _ Hk). reflexivity. }
    rewrite Hg in Hg'. injection Hg' as <-. pose proof (ci_kd _ _ _ _ _ _ _ _ _ _ I b g Hg) as KD. unfold keys_distinct in KD.
    set (es := match g.1 with Some h => [(b, h)] | None => [] end ++ g.2).
    assert (Ees : es.*2 = gvals g) by (unfold es, gvals; rewrite fmap_app; destruct g.1; reflexivity).
    assert (Hes : forall x u, (x = b /\ g.1 = Some u) \/ (x, u) ∈ g.2 -> exists j, es !! j = Some (x, u)).
    { intros x u Hx. apply elem_of_list_lookup. unfold es. apply elem_of_app. destruct Hx as [[-> ->]|Hx]; [left; left|right; exact Hx]. }
    destruct (Hes p v Hp) as [i Hi]. destruct (Hes q w Hq) as [j Hj].
    assert (Hi2 : gvals g !! i = Some v) by (rewrite <- Ees, list_lookup_fmap, Hi; reflexivity).
    assert (Hj2 : gvals g !! j = Some w) by (rewrite <- Ees, list_lookup_fmap, Hj; reflexivity).
    specialize (KD i j v w Hi2 Hj2 Hk). subst j. congruence.
  Qed.
  Lemma in_list_fun s ls G F p v w : cinv s ls G F -> in_list G p v -> stored_at s p w -> v = w.
  Proof using All. intros I H [H1 _]. destruct (in_list_stored _ _ _ _ _ _ I H) as [H2 _]. congruence. Qed.

  (** *** C37: no key twice *)
  Lemma no_duplicates s ls G F p q v w : cinv s ls G F -> stored_at s p v -> stored_at s q w -> keq (kf v) (kf w) = true -> p = q.
  Proof using All.
    intros I Hp Hq Hk. destruct (occupied_where s ls G F p I (proj2 Hp)) as (v' & Hv' & Wp). destruct (occupied_where s ls G F q I (proj2 Hq)) as (w' & Hw' & Wq).
    assert (v' = v) as -> by (destruct Hp, Hv'; congruence). assert (w' = w) as -> by (destruct Hq, Hw'; congruence). clear Hv' Hw'.
    assert (Hlink : forall t e x u rest, t ∈ ls -> c_pc t = ILinkL e x -> c_prog t = CInsert u :: rest -> exists g, G !! bkt (kf u) = Some g /\ ready kf keq g (bkt (kf u)) (kf u) e).
    { intros t e x u rest Ht Epc Ep. pose proof (ci_tl _ _ _ _ _ _ _ _ _ _ I t Ht) as [[_ T2] _]. rewrite Ep in T2.
      destruct (bucket_of_bkt hash keq bc E keq_refl keq_sym keq_trans Hhash Hbc HE Hmax (kf u)) as [_ Hb]. destruct (cf_bucket kf hash keq bc E keq_refl keq_sym keq_trans Hhash Hbc HE Hmax M0 s ls G F I _ Hb) as [g Hg].
      exists g. split; [exact Hg|]. specialize (T2 g Hg). rewrite Epc in T2. exact T2. }
    assert (Hmix : forall t e x u rest y z, t ∈ ls -> c_pc t = ILinkL e x -> c_prog t = CInsert u :: rest -> in_list G y z -> keq (kf z) (kf u) = true -> False).
    { intros t e x u rest y z Ht Epc Ep (b & g & Hg & Hy) Hku. destruct (Hlink _ _ _ _ _ Ht Epc Ep) as (g' & Hg' & (h & Hh & Hhk) & Hnm & _).
      pose proof (ci_bkt _ _ _ _ _ _ _ _ _ _ I b g z Hg (in_list_val _ _ _ _ _ Hg Hy)) as B1.
      assert (Eb : bkt (kf z) = bkt (kf u)) by (unfold UnorderedProofs.bkt; rewrite (Hhash _ _ Hku); reflexivity). assert (b = bkt (kf u)) as -> by congruence. rewrite Hg in Hg'. injection Hg' as <-.
      destruct Hy as [[_ Hy]|Hy]; [congruence|]. rewrite (Hnm z) in Hku; [discriminate|]. apply elem_of_list_fmap. exists (y, z). auto. }
    destruct Wp as [Wp|(t & e & rest & Ht & Epc & Ep)]; destruct Wq as [Wq|(t' & e' & rest' & Ht' & Epc' & Ep')].
    - eapply in_list_inj; eauto.
    - exfalso. eapply (Hmix t' e' q w rest' p v); eauto.
    - exfalso. eapply (Hmix t e p v rest q w); eauto.
    - destruct (Hlink _ _ _ _ _ Ht Epc Ep) as (g & Hg & _ & _ & He). destruct (Hlink _ _ _ _ _ Ht' Epc' Ep') as (g' & Hg' & _ & _ & He').
      assert (Eb : bkt (kf v) = bkt (kf w)) by (unfold UnorderedProofs.bkt; rewrite (Hhash _ _ Hk); reflexivity). rewrite Eb in *. rewrite Hg in Hg'. injection Hg' as <-. assert (e' = e) as -> by congruence.
      apply elem_of_list_lookup in Ht as [i Hi]. apply elem_of_list_lookup in Ht' as [j Hj]. destruct (decide (i = j)) as [<- |Hne].
      + rewrite Hi in Hj. injection Hj as <-. congruence.
      + exfalso. eapply (cf_lock_excl kf hash keq bc E keq_refl keq_sym keq_trans Hhash Hbc HE Hmax M0 s ls G F I i j t t' e); eauto.
        * rewrite He. eapply (cf_node_range kf hash keq bc E keq_refl keq_sym keq_trans Hhash Hbc HE Hmax M0 s ls G F I); [exact Hg|apply lend_elem].
        * unfold lock_of. rewrite Epc. reflexivity.
        * unfold lock_of. rewrite Epc'. reflexivity.
  Qed.

  (** *** executions *)
  Lemma gext_trans G1 G2 G3 : gext G1 G2 -> gext G2 G3 -> gext G1 G3.
  Proof.
    intros H1 H2 b g Hg. destruct (H1 b g Hg) as (g2 & Hg2 & A1 & l1 & A2). destruct (H2 b g2 Hg2) as (g3 & Hg3 & B1 & l2 & B2).
    exists g3. split; [exact Hg3|]. split; [intros Hn; rewrite B1; [auto|rewrite A1; assumption]|]. exists (l1 ++ l2). rewrite B2, A2, app_assoc. reflexivity.
  Qed.
  Lemma reach_cinv s ls G F s' ls' : cinv s ls G F -> Conc.reach step (s, ls) (s', ls') -> exists G' F', cinv s' ls' G' F' /\ gext G G' /\ mono s s'.
  Proof using All.
    intros I R. remember (s, ls) as c eqn:Ec. remember (s', ls') as c' eqn:Ec'. revert s ls G F s' ls' I Ec Ec'. induction R as [c|c c1 c2 Hs R IH]; intros; subst.
    - injection Ec' as <- <-. exists G, F. split; [exact I|]. split; [apply gext_refl|]. intros p v H. exact H.
    - inversion Hs as [s0 ls0 i t s1 t1 Hi Hst]; subst. destruct (ustep_inv' _ _ _ _ _ _ _ _ I Hi Hst) as (G1 & F1 & I1 & X1 & M1).
      destruct (IH _ _ _ _ _ _ I1 eq_refl eq_refl) as (G2 & F2 & I2 & X2 & M2). exists G2, F2. split; [exact I2|]. split; [eapply gext_trans; eauto|]. intros p v H. auto.
  Qed.

End reach.

Section start.
  Context {K V : Type} (kf : V -> K) (hash : K -> Z) (keq : K -> K -> bool) (bc E : nat).
  Hypothesis keq_refl : forall a, keq a a = true.
  Hypothesis keq_sym : forall a b, keq a b = true -> keq b a = true.
  Hypothesis keq_trans : forall a b c, keq a b = true -> keq b c = true -> keq a c = true.
  Hypothesis Hhash : forall a b, keq a b = true -> hash a = hash b.
  Hypothesis Hbc : (0 < bc)%nat.
  Hypothesis HE : (0 < E)%nat.
  Hypothesis Hmax : Z.of_nat (bc + E) <= INT_MAX.
  Notation n := (bc + E)%nat.
  Notation bkt := (bkt hash bc).
  Implicit Types (s : cshared V) (t : cthread K V) (ls : list (cthread K V)) (G : list (option V * list (nat * V))) (F : list nat) (g : option V * list (nat * V)).
  Notation cinv := (cinv kf hash keq bc E).
  Notation step := (ustep kf hash keq bc E).
  Notation L0 := (replicate n false).

  Lemma c_start_in (progs : list (list (cop K V))) t : t ∈ c_start progs -> c_pc t = UIdle /\ c_log t = [] /\ c_prog t ∈ progs.
  Proof. unfold c_start. intros H. apply elem_of_list_fmap in H as (p & -> & Hp). auto. Qed.
  Lemma idle_bind {A} (f : cthread K V -> list A) (progs : list (list (cop K V))) : (forall t, t ∈ c_start progs -> f t = []) -> c_start progs ≫= f = [].
  Proof.
    intros H. assert (H2 : forall ls, (forall t, t ∈ ls -> f t = []) -> ls ≫= f = []).
    { induction ls as [|t ls IH]; intros Hls; [reflexivity|]. change (f t ++ (ls ≫= f) = []). rewrite (Hls t) by left. apply IH. intros t' Ht'. apply Hls. right. exact Ht'. }
    apply H2. exact H.
  Qed.
  Lemma start_cinv opt (u : utab V) G st progs : urep kf hash keq opt bc E L0 u G st -> (forall p op, p ∈ progs -> op ∈ p -> call_ok op) ->
    cinv (G ≫= gvals) (shared_of u) (c_start progs) G st.
  Proof using All.
    intros R Hcall. set (ls := c_start progs) in *.
    assert (Hidle : forall t, t ∈ ls -> hand t = [] /\ (forall p, lvc kf hash bc p t = 0) /\ (forall p, holds_lock kf hash bc p t = 0) /\ pend t = 0 /\ ins t = [] /\ proj t = fresh_call []).
    { intros t Ht. destruct (c_start_in progs t Ht) as (H1 & H2 & _). unfold hand, lvc, holds_lock, lock_of, pend, ins, logged, leaving, proj. rewrite H1, H2. repeat split. destruct (c_prog t) as [|[]]; reflexivity. }
    assert (Hocc : forall p, c_occ (shared_of u) !! p = is_some <$> c_values (shared_of u) !! p) by (intros p; apply (ur_occ _ _ _ _ _ _ _ _ _ _ R)).
    split; cbn [shared_of c_values c_off c_occ c_locks c_count c_ex].
    - apply (ur_lv _ _ _ _ _ _ _ _ _ _ R).
    - apply (ur_lf _ _ _ _ _ _ _ _ _ _ R).
    - apply (ur_lo _ _ _ _ _ _ _ _ _ _ R).
    - rewrite (ur_lk _ _ _ _ _ _ _ _ _ _ R). apply replicate_length.
    - apply (ur_lg _ _ _ _ _ _ _ _ _ _ R).
    - unfold ls. rewrite idle_bind by (intros t Ht; apply (Hidle t Ht)). apply (ur_perm _ _ _ _ _ _ _ _ _ _ R).
    - intros b g Hg. pose proof (ur_head _ _ _ _ _ _ _ _ _ _ R b g Hg) as H. cbn in Hocc. rewrite Hocc, H. split; [reflexivity|]. intros v ->. reflexivity.
    - apply (ur_link _ _ _ _ _ _ _ _ _ _ R).
    - intros b g p v Hg Hp. pose proof (ur_chain _ _ _ _ _ _ _ _ _ _ R b g p v Hg Hp) as H. split; [exact H|]. rewrite Hocc. cbn. rewrite H. reflexivity.
    - intros p Hp. cbn in Hocc. rewrite Hocc, (ur_free _ _ _ _ _ _ _ _ _ _ R p Hp). reflexivity.
    - apply (ur_off _ _ _ _ _ _ _ _ _ _ R).
    - intros p Hp. rewrite sumZ_zero by (intros t Ht; apply (Hidle t Ht)). cbn in Hocc. unfold lkd, lk. rewrite Hocc. destruct (lookup_lt_is_Some_2 (u_values u) p) as [o Ho]; [rewrite (ur_lv _ _ _ _ _ _ _ _ _ _ R); exact Hp|]. rewrite Ho. destruct o; reflexivity.
    - intros p Hp. rewrite sumZ_zero by (intros t Ht; apply (Hidle t Ht)). rewrite (ur_lk _ _ _ _ _ _ _ _ _ _ R). unfold lk. rewrite lookup_replicate_2 by exact Hp. reflexivity.
    - rewrite sumZ_zero by (intros t Ht; apply (Hidle t Ht)). rewrite (ur_count _ _ _ _ _ _ _ _ _ _ R). lia.
    - apply (ur_bkt _ _ _ _ _ _ _ _ _ _ R).
    - apply (ur_kd _ _ _ _ _ _ _ _ _ _ R).
    - intros t Ht. destruct (c_start_in progs t Ht) as (H1 & H2 & H3). split.
      + split; [intros op Hop; eapply Hcall; eauto|]. rewrite H1. destruct (c_prog t) as [|op rest] eqn:Ep; [reflexivity|]. intros g Hg. destruct op; exact Logic.I.
      + unfold tp. rewrite H1. destruct (c_prog t) as [|[]]; exact Logic.I.
    - rewrite (vec_start E _ _ (ur_ex _ _ _ _ _ _ _ _ _ _ R)).
      assert (Ep : proj <$> ls = q_start (T:=Z) (replicate (length progs) [])).
      { unfold ls, c_start, q_start. rewrite <- list_fmap_compose. clear. induction progs as [|p progs IH]; [reflexivity|]. cbn. f_equal. exact IH. }
      rewrite Ep. eapply inv_ext; [|apply start_inv].
      + intros w. cbn beta. rewrite <- sumZ_stored. rewrite stored_start. reflexivity. 
      + apply (r_le _ _ _ _ (ur_ex _ _ _ _ _ _ _ _ _ _ R)).
      + intros p op Hp Hop. apply elem_of_replicate in Hp as [-> _]. inversion Hop.
    - unfold ls. rewrite idle_bind by (intros t Ht; destruct (Hidle t Ht) as (_ & _ & _ & _ & -> & _); reflexivity). rewrite app_nil_r. reflexivity.
    - intros t p v Ht Hp. destruct (Hidle t Ht) as (_ & _ & _ & _ & H & _). rewrite H in Hp. inversion Hp.
  Qed.
End start.
