(** Concurrent erases and lookups on the unordered containers: the statements of UEraseProps.v for a container that represents a table. *)
From Verif Require Import Base Conc SlotModel SlotSpec SlotProofs VectorModel VectorProofs VectorConcProofs HashProofs UnorderedModel UnorderedSpec UnorderedProofs UConcModel UConcSpec UConcProofs UConcReach UConcFinal UConcEnd UConcTop UEraseModel UEraseSpec UEraseProofs UEraseFinal.

(** *** when the calls in the logs started *)
Section started.
  Context {K V : Type} (step : nat -> cshared V -> cthread K V -> option (cshared V * cthread K V)).
  Definition logs_calls : Prop := forall i s t s' t', step i s t = Some (s', t') ->
    (c_prog t' = c_prog t /\ c_log t' = c_log t) \/ exists op rest r, c_prog t = op :: rest /\ c_prog t' = rest /\ c_pc t' = UIdle /\ c_log t' = c_log t ++ [(op, r)].
  Hypothesis Hlog : logs_calls.
  (** thread [i] is about to start [op], having logged [l] *)
  Definition starting (c : cshared V * list (cthread K V)) (i : nat) (op : cop K V) (l : list (cop K V * cret)) : Prop :=
    exists t rest, c.2 !! i = Some t /\ c_pc t = UIdle /\ c_prog t = op :: rest /\ c_log t = l.
  Lemma call_started s0 progs c : Conc.reach step (s0, c_start progs) c -> forall i t, c.2 !! i = Some t ->
    (forall op rest, c_prog t = op :: rest -> exists c1, Conc.reach step (s0, c_start progs) c1 /\ Conc.reach step c1 c /\ starting c1 i op (c_log t)) /\
    (forall l1 op r l2, c_log t = l1 ++ (op, r) :: l2 -> exists c1, Conc.reach step (s0, c_start progs) c1 /\ Conc.reach step c1 c /\ starting c1 i op l1).
  Proof using All.
    unfold Conc.reach. intros R. pattern c. match goal with |- ?P c => refine (rtc_ind_r (R:=cstep step) P (s0, c_start progs) _ _ c R) end; cbn beta; clear c R; [|intros c c' R Hs IH].
    - intros i t Hi. pose proof (c_start_in progs t (elem_of_list_lookup_2 _ _ _ Hi)) as (H1 & H2 & _). split.
      + intros op rest Hp. exists (s0, c_start progs). split; [reflexivity|]. split; [reflexivity|]. exists t, rest. auto.
      + intros l1 op r l2 Hl. rewrite H2 in Hl. destruct l1; discriminate.
    - intros i t Hi. assert (R' : rtc (cstep step) (s0, c_start progs) c') by (eapply rtc_r; eauto).
      assert (Hup : forall c1 op l, rtc (cstep step) (s0, c_start progs) c1 /\ rtc (cstep step) c1 c /\ starting c1 i op l -> exists c1, rtc (cstep step) (s0, c_start progs) c1 /\ rtc (cstep step) c1 c' /\ starting c1 i op l).
      { intros c1 op l (A1 & A2 & A3). exists c1. split; [exact A1|]. split; [eapply rtc_r; eauto|exact A3]. }
      inversion Hs as [s ls j t0 s' t1 Hj Hst]; subst. cbn [snd] in *. apply list_lookup_insert_Some in Hi as [(<- & <- & _)|[Hne Hi]].
      + destruct (IH j t0 Hj) as [IH1 IH2]. destruct (Hlog _ _ _ _ _ Hst) as [[E1 E2]|(op & rest & r & E1 & E2 & E3 & E4)].
        * rewrite E1, E2. split; [intros op rest Hp; destruct (IH1 op rest Hp) as [c1 H]; eauto|intros l1 op r l2 Hl; destruct (IH2 l1 op r l2 Hl) as [c1 H]; eauto].
        * split.
          -- intros op' rest' Hp. exists (s', <[j:=t1]> ls). split; [exact R'|]. split; [reflexivity|]. exists t1, rest'. cbn [snd]. rewrite list_lookup_insert by (eapply lookup_lt_Some; exact Hj). auto.
          -- intros l1 op' r' l2 Hl. rewrite E4 in Hl. destruct l2 as [|x l3 _] using rev_ind.
             ++ apply app_inj_tail in Hl as [<- Hx]. injection Hx as <- <-. destruct (IH1 op rest E1) as [c1 H]. eauto.
             ++ rewrite (app_comm_cons l3 [x] (op', r')), app_assoc in Hl. apply app_inj_tail in Hl as [Hl _]. destruct (IH2 _ _ _ _ Hl) as [c1 H]. eauto.
      + destruct (IH i t Hi) as [IH1 IH2]. split; [intros op rest Hp; destruct (IH1 op rest Hp) as [c1 H]; eauto|intros l1 op r l2 Hl; destruct (IH2 l1 op r l2 Hl) as [c1 H]; eauto].
  Qed.
  (** the calls of a thread are those of its program *)
  Lemma prog_of s0 progs s ls i t : Conc.reach step (s0, c_start progs) (s, ls) -> ls !! i = Some t -> exists prog, progs !! i = Some prog /\ (c_log t).*1 ++ c_prog t = prog.
  Proof using All.
    intros R. pose (P := fun c : cshared V * list (cthread K V) => forall i t, c.2 !! i = Some t -> exists prog, progs !! i = Some prog /\ ((c_log t).*1 ++ c_prog t = prog)).
    assert (H : P (s, ls)); [|exact (H i t)]. refine (rtc_ind_r (R:=cstep step) P (s0, c_start progs) _ _ (s, ls) R).
    - intros j t' Hj. cbn [snd] in Hj. unfold c_start in Hj. rewrite list_lookup_fmap in Hj. destruct (progs !! j) as [prog|]; [|discriminate]. injection Hj as <-. exists prog. auto.
    - intros c c' _ Hs IH. inversion Hs as [s1 ls1 j t1 s2 t2 Hj Hst]; subst. intros j' t' Hj'. cbn [snd] in Hj'. apply list_lookup_insert_Some in Hj' as [(<- & <- & _)|[_ Hj']]; [|exact (IH j' t' Hj')].
      destruct (IH j t1 Hj) as (prog & E1 & E2). exists prog. split; [exact E1|]. destruct (Hlog _ _ _ _ _ Hst) as [[E3 E4]|(op & rest & r & E3 & E4 & _ & E5)].
      + rewrite E3, E4. exact E2.
      + rewrite E4, E5, fmap_app. cbn [fmap list_fmap fst]. rewrite <- app_assoc. cbn [app]. rewrite <- E3. exact E2.
  Qed.
  Lemma reach_len s0 progs s ls : Conc.reach step (s0, c_start progs) (s, ls) -> length ls = length progs.
  Proof using All.
    intros R. pose (P := fun c : cshared V * list (cthread K V) => length c.2 = length progs). change (P (s, ls)). refine (rtc_ind_r (R:=cstep step) P (s0, c_start progs) _ _ (s, ls) R).
    - unfold P, c_start. cbn [snd]. apply fmap_length.
    - intros c c' _ Hs IH. inversion Hs as [s1 ls1 j t1 s2 t2 Hj Hst]; subst. unfold P in *. cbn [snd] in *. rewrite insert_length. exact IH.
  Qed.
End started.

Lemma ustep_logs {K V} (kf : V -> K) hash keq bc E : logs_calls (ustep kf hash keq bc E).
Proof.
  intros i s t s' t' H. unfold ustep in H. destruct (c_prog t) as [|op rest] eqn:Ep; [discriminate|].
  assert (Hgo : forall pc, (c_prog (cgo t pc) = op :: rest /\ c_log (cgo t pc) = c_log t) \/ exists op' rest' r, op :: rest = op' :: rest' /\ c_prog (cgo t pc) = rest' /\ c_pc (cgo t pc) = UIdle /\ c_log (cgo t pc) = c_log t ++ [(op', r)]) by (intros pc; left; split; [exact Ep|reflexivity]).
  assert (Hfin : forall r, (c_prog (cfinish t op r) = op :: rest /\ c_log (cfinish t op r) = c_log t) \/ exists op' rest' r', op :: rest = op' :: rest' /\ c_prog (cfinish t op r) = rest' /\ c_pc (cfinish t op r) = UIdle /\ c_log (cfinish t op r) = c_log t ++ [(op', r')]).
  { intros r. right. exists op, rest, r. cbn [cfinish c_prog c_pc c_log]. rewrite Ep. auto. }
  destruct (bucket_of hash bc (op_key kf op)) as [b|]; [|discriminate].
  destruct (c_pc t); repeat case_match; try discriminate; injection H as <- <-; unfold after_find, after_end, after_prev, again; repeat case_match; auto.
Qed.
Lemma estep_logs {K V} (kf : V -> K) hash keq bc E : logs_calls (estep kf hash keq bc E).
Proof.
  intros i s t s' t' H. unfold estep in H. destruct (c_pc t) eqn:Ec; try (eapply ustep_logs; exact H).
  - repeat case_match; try discriminate. injection H as <- <-. left. auto.
  - repeat case_match; try discriminate. injection H as <- <-. left. auto.
Qed.

Section etop.
  Context {K V : Type} (kf : V -> K) (hash : K -> Z) (keq : K -> K -> bool) (ord : nat -> list nat) (bc E : nat).
  Hypothesis Hk : key_equality keq.
  Hypothesis Hh : hash_respects keq hash.
  Hypothesis Ho : any_order ord.
  Hypothesis Hsz : sizes_ok bc E.
  Context (fuel : nat).
  Hypothesis Hf : (2 <= fuel)%nat.
  Context (u : utab V).
  Hypothesis Hu : exists G st, urep kf hash keq true bc E (replicate (bc + E) false) u G st.
  Context (progs : list (list (cop K V))).
  Hypothesis Hp : erases_and_lookups progs.
  Notation n := (bc + E)%nat.
  Notation L0 := (replicate n false).
  Notation step := (estep kf hash keq bc E).
  Notation start := (shared_of u, c_start progs).
  Notation present_at := (present_at kf hash keq bc).
  Notation present := (present kf hash keq bc).
  Let kr : forall a, keq a a = true. Proof using Hk. apply Hk. Qed.
  Let ks : forall a b, keq a b = true -> keq b a = true. Proof using Hk. apply Hk. Qed.
  Let kt : forall a b c, keq a b = true -> keq b c = true -> keq a c = true. Proof using Hk. apply Hk. Qed.
  Let Hbc : (0 < bc)%nat. Proof using Hsz. apply Hsz. Qed.
  Let HE : (0 < E)%nat. Proof using Hsz. apply Hsz. Qed.
  Let Hmax : Z.of_nat n <= INT_MAX. Proof using Hsz. apply Hsz. Qed.
  Notation B f := (f kf hash keq bc E kr ks kt Hh Hbc HE Hmax).

  Lemma etop_start : exists G st, urep kf hash keq true bc E L0 u G st /\ cinv (K:=K) kf hash keq bc E (G ≫= gvals) (shared_of u) [] G st /\
    einv kf hash keq bc E (shared_of u) G st (shared_of u) (c_start progs) [] st.
  Proof using All.
    destruct Hu as (G & st & R). exists G, st. split; [exact R|].
    assert (I0 : cinv (K:=K) kf hash keq bc E (G ≫= gvals) (shared_of u) [] G st).
    { refine (B start_cinv true u G st [] R _). intros p op H. inversion H. }
    split; [exact I0|].
    assert (J : cinv (K:=K) kf hash keq bc E (G ≫= gvals) (shared_of u) (c_start ((fun _ => []) <$> progs)) G st).
    { refine (B start_cinv true u G st _ R _). intros p op H Hop. apply elem_of_list_fmap in H as (? & -> & _). inversion Hop. }
    refine (B einv_start (G ≫= gvals) (shared_of u) G st I0 progs Hp _ _ _).
    - cbn [shared_of c_count c_occ]. rewrite (ur_count _ _ _ _ _ _ _ _ _ _ R), <- bcount_sum. symmetry.
      exact (occ_count kf hash keq true ord Ho kr ks kt Hh bc E Hbc HE Hmax _ _ _ _ R).
    - cbn [shared_of c_ex q_c]. rewrite (r_n _ _ _ _ (ur_ex _ _ _ _ _ _ _ _ _ _ R)), fmap_length. reflexivity.
    - pose proof (ci_vec _ _ _ _ _ _ _ _ _ _ J) as H. assert (Ev : eproj <$> c_start progs = proj <$> c_start (K:=K) (V:=V) ((fun _ => []) <$> progs)); [|rewrite Ev; exact H].
      clear. unfold c_start. induction progs as [|p ps IH]; [reflexivity|]. cbn. f_equal. exact IH.
  Qed.
  Lemma etop_reach c : Conc.reach step start c -> exists G st Gn F, urep kf hash keq true bc E L0 u G st /\ cinv (K:=K) kf hash keq bc E (G ≫= gvals) (shared_of u) [] G st /\
    einv kf hash keq bc E (shared_of u) G st (shared_of u) (c_start progs) [] st /\ einv kf hash keq bc E (shared_of u) G st c.1 c.2 Gn F.
  Proof using All.
    intros R. destruct etop_start as (G & st & R0 & I0 & J0). destruct c as [s ls]. destruct (B reach_einv _ _ G st I0 _ _ _ _ s ls J0 R) as (Gn & F & J & _). exists G, st, Gn, F. auto.
  Qed.
  Lemma etop_from c c' : Conc.reach step start c -> Conc.reach step c c' -> exists G st Gn F Gn' F', cinv (K:=K) kf hash keq bc E (G ≫= gvals) (shared_of u) [] G st /\
    einv kf hash keq bc E (shared_of u) G st c.1 c.2 Gn F /\ einv kf hash keq bc E (shared_of u) G st c'.1 c'.2 Gn' F' /\ later c.1 Gn c'.1 Gn'.
  Proof using All.
    intros R R2. destruct (etop_reach c R) as (G & st & Gn & F & _ & I0 & _ & J). destruct c as [s ls], c' as [s' ls']. destruct (B reach_einv _ _ G st I0 _ _ _ _ s' ls' J R2) as (Gn' & F' & J' & L). exists G, st, Gn, F, Gn', F'. auto.
  Qed.

  (** *** presence *)
  Lemma etop_mono c c' k p : Conc.reach step start c -> Conc.reach step c c' -> present_at c'.1 k p -> present_at c.1 k p.
  Proof using All.
    intros R R2 H. destruct (etop_from c c' R R2) as (G & st & Gn & F & Gn' & F' & I0 & J & J' & L). exact (B present_later _ _ G st I0 _ _ _ _ _ _ _ _ k p J J' L H).
  Qed.
  Lemma etop_one s ls k p q : Conc.reach step start (s, ls) -> present_at s k p -> present_at s k q -> p = q.
  Proof using All. intros R. destruct (etop_reach _ R) as (G & st & Gn & F & _ & I0 & _ & J). exact (B present_one _ _ G st I0 _ _ _ _ k p q J). Qed.
  Lemma etop_falls s ls i t s' t' k : Conc.reach step start (s, ls) -> ls !! i = Some t -> step i s t = Some (s', t') -> present s k -> ~ present s' k ->
    c_pc t <> UIdle /\ exists k' rest, c_prog t = CErase k' :: rest /\ keq k' k = true.
  Proof using All.
    intros R Hi Hst [p H1] H2. split.
    - intros Hc. apply H2. unfold estep in Hst. rewrite Hc in Hst. unfold ustep in Hst. rewrite Hc in Hst. repeat case_match; try discriminate; injection Hst as <- _; exists p; exact H1.
    - destruct (etop_reach _ R) as (G & st & Gn & F & _ & I0 & _ & J). destruct (B present_step _ _ G st I0 _ _ _ _ i t s' t' k p J Hi Hst H1) as [H|H]; [destruct H2; exists p; exact H|exact H].
  Qed.
  Lemma etop_stays s ls k : Conc.reach step start (s, ls) -> present (shared_of u) k -> (forall prog k', prog ∈ progs -> CErase k' ∈ prog -> keq k' k = false) -> present s k.
  Proof using All.
    intros R H0 Hn. pose (P := fun c : cshared V * list (cthread K V) => present (fst c) k). change (P (s, ls)). refine (rtc_ind_r (R:=cstep step) P start H0 _ (s, ls) R).
    intros c c' R1 Hs IH. inversion Hs as [s1 ls1 j t1 s2 t2 Hj Hst]; subst. unfold P in *. cbn [fst] in *.
    destruct IH as [p Hp1]. destruct (etop_reach _ R1) as (G & st & Gn & F & _ & I0 & _ & J). exists p.
    destruct (B present_step _ _ G st I0 _ _ _ _ j t1 s2 t2 k p J Hj Hst Hp1) as [H|(k' & rest & H1 & H2)]; [exact H|exfalso].
    destruct (prog_of step (estep_logs kf hash keq bc E) (shared_of u) progs s1 ls1 j t1 R1 Hj) as (prog & E1 & E2). rewrite (Hn prog k' (elem_of_list_lookup_2 _ _ _ E1)) in H2; [discriminate|]. rewrite <- E2, H1. apply elem_of_app. right. left.
  Qed.

  (** *** results *)
  Lemma etop_told s ls i t l1 op r l2 : Conc.reach step start (s, ls) -> ls !! i = Some t -> c_log t = l1 ++ (op, r) :: l2 ->
    exists s1 ls1, Conc.reach step start (s1, ls1) /\ Conc.reach step (s1, ls1) (s, ls) /\ starting (s1, ls1) i op l1 /\ told kf hash keq bc s1 op r.
  Proof using All.
    intros R Hi Hl. destruct (call_started step (estep_logs kf hash keq bc E) (shared_of u) progs (s, ls) R i t Hi) as [_ H]. destruct (H l1 op r l2 Hl) as ([s1 ls1] & R1 & R2 & St).
    exists s1, ls1. split; [exact R1|]. split; [exact R2|]. split; [exact St|]. destruct St as (t1 & rest & Hi1 & Hc1 & Hp1 & Hl1). cbn [snd] in Hi1.
    destruct (etop_reach _ R1) as (G & st & Gn & F & _ & I0 & _ & J).
    destruct (B reach_following _ _ G st I0 s1 ls1 Gn F J i t1 op rest s ls Hi1 Hp1 Hc1 R2) as (t' & Hi' & [(_ & H1 & _)|(r' & more & H1 & H2)]).
    - rewrite Hi in Hi'. injection Hi' as <-. rewrite H1, Hl1 in Hl. rewrite <- (app_nil_r l1) in Hl at 1. apply app_inv_head in Hl. discriminate.
    - rewrite Hi in Hi'. injection Hi' as <-. rewrite H1, Hl1 in Hl. apply app_inv_head in Hl. injection Hl as -> _. exact H2.
  Qed.
  Lemma result_log (ls : list (cthread K V)) op r : result ls op r -> exists i t l1 l2, ls !! i = Some t /\ c_log t = l1 ++ (op, r) :: l2.
  Proof. intros (t & Ht & Hl). apply elem_of_list_lookup in Ht as [i Hi]. apply elem_of_list_split in Hl as (l1 & l2 & Hl). eauto 8. Qed.
  Lemma etop_gone s ls k : Conc.reach step start (s, ls) -> result ls (CFind k) (RFound None) \/ result ls (CErase k) (RErased false) \/ result ls (CErase k) (RErased true) -> ~ present s k.
  Proof using All.
    intros R Hr. destruct (etop_reach _ R) as (G & st & Gn & F & _ & I0 & J0 & J). cbn [fst snd] in J.
    assert (Hg : forall t x, t ∈ ls -> x ∈ c_log t -> gone_log kf hash keq bc s x).
    { refine (B reach_gone _ _ G st I0 (shared_of u) (c_start progs) [] st s ls J0 _ R). intros t x Ht Hx. destruct (c_start_in progs t Ht) as (_ & H & _). rewrite H in Hx. inversion Hx. }
    destruct Hr as [(t & Ht & Hx)|[(t & Ht & Hx)|(t & Ht & Hx)]]; [exact (Hg t _ Ht Hx)|exact (Hg t _ Ht Hx)|]. exact (B erased_gone _ _ G st I0 s ls Gn F t k J Ht Hx).
  Qed.
  Lemma etimes_le (k : K) (ls : list (cthread K V)) : 0 <= erased_times keq k ls <= sumZ (succ keq k) ls.
  Proof using All.
    unfold erased_times. split.
    - apply sumZ_nonneg. intros t _. apply (lsucc_nonneg hash keq bc E kr ks kt Hh Hbc HE Hmax).
    - apply sumZ_le. intros t _. change (lsucc keq k (c_log t) <= succ keq k t). unfold succ, rsucc. destruct (c_prog t) as [|[] ?]; try lia. destruct (keq k0 k && past (c_pc t)); lia.
  Qed.
  Lemma etimes_eq a b (ls : list (cthread K V)) : keq a b = true -> erased_times keq a ls = erased_times keq b ls.
  Proof using All.
    intros H. unfold erased_times. apply sumZ_ext. intros t _. apply sumZ_ext. intros [op r] _. destruct op as [v|k|k]; try reflexivity. destruct r as [| |[]|]; try reflexivity.
    destruct (keq k a) eqn:E1, (keq k b) eqn:E2; try reflexivity.
    - rewrite (kt k a b E1 H) in E2. discriminate.
    - rewrite (kt k b a E2 (ks _ _ H)) in E1. discriminate.
  Qed.
  Lemma etimes_pos (k : K) (ls : list (cthread K V)) : 0 < erased_times keq k ls -> exists k', keq k' k = true /\ result ls (CErase k') (RErased true).
  Proof using All.
    intros H. unfold erased_times in H. apply sumZ_pos_witness in H; [|intros t _; apply (lsucc_nonneg hash keq bc E kr ks kt Hh Hbc HE Hmax)]. destruct H as (i & t & Hi & H). change (0 < lsucc keq k (c_log t)) in H.
    apply sumZ_pos_witness in H; [|intros [[] [| |[]|]] _; try lia; destruct (keq k0 k); lia]. destruct H as (j & [op r] & Hj & H). destruct op as [v|k0|k0]; try lia. destruct r as [| |[]|]; try lia. destruct (keq k0 k) eqn:E0; [|lia].
    exists k0. split; [exact E0|]. exists t. split; eapply elem_of_list_lookup_2; eassumption.
  Qed.
  Lemma etop_once s ls k : Conc.reach step start (s, ls) -> 0 <= erased_times keq k ls <= 1 /\ (erased_times keq k ls = 1 -> present (shared_of u) k).
  Proof using All.
    intros R. destruct (etop_reach _ R) as (G & st & Gn & F & _ & I0 & J0 & J). cbn [fst snd] in J. pose proof (etimes_le k ls) as [H0 _].
    assert (Hc : erased_times keq k ls = 0 \/ exists p v, st0 (shared_of u) p v /\ keq (kf v) k = true).
    { destruct (decide (erased_times keq k ls = 0)) as [?|Hd]; [auto|right]. destruct (etimes_pos k ls) as (k' & Hk' & t & Ht & Hl); [lia|]. destruct (ei_log _ _ _ _ _ _ _ _ _ _ _ _ J t k' Ht Hl) as (p & v & Hv & Hkv). eauto. }
    destruct Hc as [Hc|(p & v & Hv & Hkv)]; [split; [lia|intros; lia]|]. pose proof (ei_succ _ _ _ _ _ _ _ _ _ _ _ _ J p v Hv) as H. destruct (etimes_le (kf v) ls) as [_ H1]. rewrite (etimes_eq _ _ ls Hkv) in H1.
    split; [destruct (lk (c_occ s) p); cbn in H; lia|]. intros _. exists p. refine (proj2 (B present_iff _ _ G st I0 _ _ _ _ k p J0) _).
    split; [|split; [intros Hx; inversion Hx|split; [apply lk_true; apply Hv|eauto]]]. replace (bkt hash bc k) with (bkt hash bc (kf v)) by (unfold bkt; rewrite (Hh _ _ Hkv); reflexivity). exact (B st0_node _ _ G st I0 p v Hv).
  Qed.
  Lemma etop_progress s ls i t : Conc.reach step start (s, ls) -> ls !! i = Some t -> c_prog t <> [] -> step i s t <> None.
  Proof using All. intros R Hi Hn. destruct (etop_reach _ R) as (G & st & Gn & F & _ & I0 & _ & J). exact (B estep_some _ _ G st I0 s ls Gn F i t J Hi Hn). Qed.
  Lemma etop_entry s ls p v : Conc.reach step start (s, ls) -> entry s p v -> entry (shared_of u) p v.
  Proof using All.
    intros R [H1 H2]. destruct (etop_reach _ R) as (G & st & Gn & F & _ & I0 & _ & J). cbn [fst snd] in J. apply lk_true in H2. destruct (ei_occ _ _ _ _ _ _ _ _ _ _ _ _ J p H2) as [w Hw].
    rewrite (ei_val _ _ _ _ _ _ _ _ _ _ _ _ J) in H1. assert (w = v) as -> by (destruct Hw; congruence). exact Hw.
  Qed.
  (** *** no call running *)
  Lemma start_present M0 k : content kf keq (shared_of u) M0 -> present (shared_of u) k <-> holds kf keq M0 k.
  Proof using All.
    intros [_ HM]. destruct etop_start as (G & st & _ & I0 & J0). split.
    - intros (p & b & v & _ & _ & He & Hkv). exists v. split; [apply HM; eauto|exact Hkv].
    - intros (v & Hv & Hkv). apply HM in Hv as [p Hv]. exists p. refine (proj2 (B present_iff _ _ G st I0 _ _ _ _ k p J0) _).
      split; [|split; [intros Hx; inversion Hx|split; [apply lk_true; apply Hv|exists v; split; [exact Hv|exact Hkv]]]]. replace (bkt hash bc k) with (bkt hash bc (kf v)) by (unfold bkt; rewrite (Hh _ _ Hkv); reflexivity). exact (B st0_node _ _ G st I0 p v Hv).
  Qed.
  Lemma kd_filter (P : V -> Prop) {HP : forall v, Decision (P v)} M : keys_distinct kf keq M -> keys_distinct kf keq (filter P M).
  Proof using All.
    intros H. pose proof (kd_sub kf keq bc E Hbc HE Hmax (None, (fun v => (0%nat, v)) <$> M) (fun x => P x.2) None (or_introl eq_refl)) as X. unfold gvals in X. cbn [fst snd olist app] in X.
    assert (E1 : ((fun v => (0%nat, v)) <$> M).*2 = M) by (clear; induction M as [|v M IH]; [reflexivity|cbn; f_equal; exact IH]).
    assert (E2 : (filter (fun x : nat * V => P x.2) ((fun v => (0%nat, v)) <$> M)).*2 = filter P M).
    { clear. induction M as [|v M IH]; [reflexivity|]. cbn [fmap list_fmap]. rewrite !filter_cons. cbn [snd]. destruct (decide (P v)); cbn; f_equal; exact IH. }
    rewrite E1, E2 in X. apply X. exact H.
  Qed.
  Lemma etop_content s ls M0 : Conc.reach step start (s, ls) -> c_quiescent ls -> content kf keq (shared_of u) M0 ->
    content kf keq s (not_erased kf keq ls M0) /\ c_count s = Z.of_nat (length (not_erased kf keq ls M0)).
  Proof using All.
    intros R Hq [HM1 HM2]. destruct (etop_reach _ R) as (G & st & Gn & F & _ & I0 & J0 & J). cbn [fst snd] in J.
    assert (HC : content kf keq s (not_erased kf keq ls M0)).
    { split; [apply kd_filter; exact HM1|]. intros v. unfold not_erased. rewrite elem_of_list_filter, HM2. split.
      - intros [H1 [p H2]]. exists p. apply (B rest_entry _ _ G st I0 s ls Gn F J Hq). auto.
      - intros [p H]. apply (B rest_entry _ _ G st I0 s ls Gn F J Hq) in H as [H1 H2]. split; [exact H2|exists p; exact H1]. }
    split; [exact HC|]. rewrite (B rest_count _ _ G st I0 s ls Gn F J Hq). f_equal. symmetry. apply Permutation_length.
    refine (UConcTop.content_perm kf hash keq true ord bc E Hk Hh Ho Hsz fuel Hf u Hu [] _ _ _ (ended s) _ _ _ (B rest_cinv' _ _ G st I0 s ls Gn F J Hq) (rest_quiet ls) _).
    - intros p op H. inversion H.
    - destruct HC as [HC1 HC2]. split; [exact HC1|]. intros v. rewrite HC2. split; intros [p [H1 H2]]; exists p; (split; [|exact H2]).
      + rewrite (ended_lookup s p _ H1). apply lk_true in H2. rewrite H2. reflexivity.
      + cbn [ended c_values c_occ] in H1, H2. rewrite list_lookup_imap, H2 in H1. destruct (c_values s !! p) as [o|]; [|discriminate]. cbn in H1. congruence.
  Qed.
  Lemma etop_rep s ls : Conc.reach step start (s, ls) -> c_quiescent ls -> exists G st, urep kf hash keq true bc E L0 (utab_of bc (u_indices u) (ended s)) G st.
  Proof using All.
    intros R Hq. destruct (etop_reach _ R) as (G & st & Gn & F & Ru & I0 & J0 & J). cbn [fst snd] in J. eexists. exact (B rest_urep _ _ G st I0 s ls Gn F J Hq (u_indices u) (ur_li _ _ _ _ _ _ _ _ _ _ Ru)).
  Qed.
  Lemma etop_rest_present s ls p v k : Conc.reach step start (s, ls) -> c_quiescent ls -> entry s p v -> keq (kf v) k = true -> present_at s k p.
  Proof using All.
    intros R Hq He Hkv. pose proof (etop_entry s ls p v R He) as He0. destruct (etop_reach _ R) as (G & st & Gn & F & _ & I0 & J0 & J). cbn [fst snd] in J.
    refine (proj2 (B present_iff _ _ G st I0 _ _ _ _ k p J) _). pose proof (proj2 He) as Hl. apply lk_true in Hl. split; [|split].
    - replace (bkt hash bc k) with (bkt hash bc (kf v)) by (unfold bkt; rewrite (Hh _ _ Hkv); reflexivity). exact (B st0_node _ _ G st I0 p v He0).
    - intros Hx. rewrite (B rest_occ_gn _ _ G st I0 s ls Gn F J Hq p Hx) in Hl. discriminate.
    - split; [exact Hl|]. exists v. auto.
  Qed.
End etop.
