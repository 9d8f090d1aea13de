(** Concurrent inserts and lookups on the unordered containers: the statements of UConcProps.v for containers that calls of one caller left behind. *)
From Verif Require Import Base Conc SlotModel SlotSpec SlotProofs VectorModel VectorProofs VectorConcProofs HashProofs UnorderedModel UnorderedSpec UnorderedProofs UConcModel UConcSpec UConcProofs UConcReach UConcFinal UConcEnd.

Section kd.
  Context {K V : Type} (kf : V -> K) (keq : K -> K -> bool) (keq_refl : forall a, keq a a = true).
  Lemma kd_app_l M N : keys_distinct kf keq (M ++ N) -> keys_distinct kf keq M.
  Proof. intros H i j v w Hi Hj. apply (H i j v w); apply lookup_app_l_Some; assumption. Qed.
  Lemma kd_nodup M : keys_distinct kf keq M -> NoDup M.
  Proof using keq_refl. intros H. apply NoDup_alt. intros i j v Hi Hj. apply (H i j v v Hi Hj). apply keq_refl. Qed.
End kd.

Lemma insert_calls_sum {K V : Type} (progs : list (list (cop K V))) : sumZ need (c_start progs) = Z.of_nat (insert_calls progs).
Proof.
  assert (H1 : forall p : list (cop K V), inserts p = Z.of_nat (length (omap (fun op : cop K V => match op with CInsert v => Some v | _ => None end) p))).
  { induction p as [|[v|k|k] p IH]; [reflexivity| | |]; unfold inserts in *; cbn [sumZ omap list_omap length] in *; rewrite IH; lia. }
  unfold insert_calls, c_start. induction progs as [|p ps IH]; [reflexivity|]. cbn [fmap list_fmap sumZ mbind list_bind]. rewrite IH, app_length.
  assert (H : need {| c_prog := p; c_pc := UIdle; c_log := [] |} = inserts p) by (unfold need, took; cbn [c_prog c_pc]; destruct p as [|[]]; lia).
  rewrite H, H1. lia.
Qed.

Lemma reachable_rep {K V : Type} (kf : V -> K) hash keq opt ord bc E fuel (u0 u : utab V) : key_equality keq -> hash_respects keq hash -> any_order ord -> sizes_ok bc E -> (2 <= fuel)%nat ->
  reachable kf hash keq opt ord fuel bc E u0 u -> exists G st, urep kf hash keq opt bc E (replicate (bc + E) false) u G st.
Proof.
  intros (kr & ks & kt) Hh Ho (Hbc & HE & Hmax) Hf (junk & ops & rs & Hops & E0 & E1).
  destruct (UnorderedProofs.reach kf hash keq opt ord Ho kr ks kt Hh bc E Hbc HE Hmax fuel Hf junk ops Hops) as (u0' & u' & rs' & G & st & E0' & E1' & _ & R & _).
  assert (u0' = u0) as -> by congruence. assert (u' = u) as -> by congruence. eauto.
Qed.

Section top.
  Context {K V : Type} (kf : V -> K) (hash : K -> Z) (keq : K -> K -> bool) (opt : bool) (ord : nat -> list nat) (bc E : nat).
  Hypothesis Hk : key_equality keq.
  Hypothesis Hh : hash_respects keq hash.
  Hypothesis Ho : any_order ord.
  Hypothesis Hsz : sizes_ok bc E.
  Context (fuel : nat).
  Hypothesis Hf : (2 <= fuel)%nat.
  Context (u : utab V).
  (** the container represents a table: after calls of one caller ([reachable_rep]) and after kernels (UHistProofs.v) *)
  Hypothesis Hu : exists G st, urep kf hash keq opt bc E (replicate (bc + E) false) u G st.
  Context (progs : list (list (cop K V))).
  Hypothesis Hp : inserts_and_lookups progs.
  Notation n := (bc + E)%nat.
  Notation L0 := (replicate n false).
  Notation step := (ustep kf hash keq bc E).
  Notation start := (shared_of u, c_start progs).
  Let kr : forall a, keq a a = true. Proof using Hk. apply Hk. Qed.
  Let ks : forall a b, keq a b = true -> keq b a = true. Proof using Hk. apply Hk. Qed.
  Let kt : forall a b c, keq a b = true -> keq b c = true -> keq a c = true. Proof using Hk. apply Hk. Qed.
  Let Hbc : (0 < bc)%nat. Proof using Hsz. apply Hsz. Qed.
  Let HE : (0 < E)%nat. Proof using Hsz. apply Hsz. Qed.
  Let Hmax : Z.of_nat n <= INT_MAX. Proof using Hsz. apply Hsz. Qed.

  Lemma top_start : exists G st, urep kf hash keq opt bc E L0 u G st /\ cinv kf hash keq bc E (G ≫= gvals) (shared_of u) (c_start progs) G st.
  Proof using All.
    destruct Hu as (G & st & R). exists G, st. split; [exact R|]. eapply (start_cinv kf hash keq bc E kr ks kt Hh Hbc HE Hmax); [exact R|]. intros p op H1 H2. exact (Hp p op H1 H2).
  Qed.
  Lemma top_reach s ls : Conc.reach step start (s, ls) -> exists G st G' F', urep kf hash keq opt bc E L0 u G st /\ cinv kf hash keq bc E (G ≫= gvals) (shared_of u) (c_start progs) G st /\
    cinv kf hash keq bc E (G ≫= gvals) s ls G' F' /\ gext G G' /\ mono (shared_of u) s.
  Proof using All.
    intros R. destruct top_start as (G & st & R0 & I0). destruct (reach_cinv kf hash keq bc E kr ks kt Hh Hbc HE Hmax _ _ _ _ _ _ _ I0 R) as (G' & F' & I & X & M). exists G, st, G', F'. auto.
  Qed.
  (** in a state where no entry is being linked *)
  Lemma entry_in M0 s ls G F p v : cinv kf hash keq bc E M0 s ls G F -> c_quiescent ls -> entry s p v -> in_list G p v.
  Proof using All.
    intros I Hq He. destruct (occupied_where kf hash keq bc E kr ks kt Hh Hbc HE Hmax M0 s ls G F p I (proj2 He)) as (v' & Hv' & [W|(t & e & rest & Ht & Hc & _)]).
    - assert (v' = v) as -> by (destruct He, Hv'; congruence). exact W.
    - rewrite (Hq t Ht) in Hc. discriminate.
  Qed.
  Lemma start_quiescent : c_quiescent (c_start progs).
  Proof. intros t Ht. apply (c_start_in progs t Ht). Qed.
  Lemma content_perm M0 M s ls G F : cinv kf hash keq bc E M0 s ls G F -> c_quiescent ls -> content kf keq s M -> M ≡ₚ G ≫= gvals.
  Proof using All.
    intros I Hq [HM1 HM2]. apply NoDup_Permutation; [eapply kd_nodup; eauto|eapply kd_nodup; [exact kr|]|].
    - eapply (content_kd_of kf hash keq true (seq 0) (fun n => reflexivity _) kr ks kt Hh bc E Hbc HE Hmax); [apply (ci_bkt _ _ _ _ _ _ _ _ _ _ I)|apply (ci_kd _ _ _ _ _ _ _ _ _ _ I)].
    - intros v. rewrite HM2. split.
      + intros (p & He). eapply content_in. eapply entry_in; eauto.
      + intros Hv. apply in_content in Hv as [p Hv]. exists p. eapply (in_list_stored kf hash keq bc E kr ks kt Hh Hbc HE Hmax); eauto.
  Qed.
  Lemma perm_content M0 s ls G F : cinv kf hash keq bc E M0 s ls G F -> c_quiescent ls -> content kf keq s (G ≫= gvals).
  Proof using All.
    intros I Hq. split.
    - eapply (content_kd_of kf hash keq true (seq 0) (fun n => reflexivity _) kr ks kt Hh bc E Hbc HE Hmax); [apply (ci_bkt _ _ _ _ _ _ _ _ _ _ I)|apply (ci_kd _ _ _ _ _ _ _ _ _ _ I)].
    - intros v. split.
      + intros Hv. apply in_content in Hv as [p Hv]. exists p. eapply (in_list_stored kf hash keq bc E kr ks kt Hh Hbc HE Hmax); eauto.
      + intros (p & He). eapply content_in. eapply entry_in; eauto.
  Qed.
  Lemma logged_values (t : cthread K V) : (logged t).*2 = omap (fun x => match x with (CInsert v, RInserted _) => Some v | _ => None end) (c_log t).
  Proof.
    unfold logged. induction (c_log t) as [|x l IH]; [reflexivity|].
    change ((match (match x with (CInsert v, RInserted p) => Some (p, v) | _ => None end) with Some y => y :: omap (fun x => match x with (CInsert v, RInserted p) => Some (p, v) | _ => None end) l
      | None => omap (fun x => match x with (CInsert v, RInserted p) => Some (p, v) | _ => None end) l end).*2 =
      match (match x with (CInsert v, RInserted _) => Some v | _ => None end) with Some y => y :: omap (fun x => match x with (CInsert v, RInserted _) => Some v | _ => None end) l
      | None => omap (fun x => match x with (CInsert v, RInserted _) => Some v | _ => None end) l end).
    destruct x as [[] []]; try exact IH. cbn [fmap list_fmap snd]. f_equal. exact IH.
  Qed.
  Lemma inserted_sub (ls : list (cthread K V)) : inserted_values ls ⊆+ (ls ≫= fun t => (ins t).*2).
  Proof.
    unfold inserted_values. induction ls as [|t ls IH]; [reflexivity|].
    cbn [mbind list_bind]. apply submseteq_app; [|exact IH]. rewrite <- logged_values. unfold ins. rewrite fmap_app. apply submseteq_inserts_r. reflexivity.
  Qed.
  Lemma inserted_eq (ls : list (cthread K V)) : c_quiescent ls -> inserted_values ls = (ls ≫= fun t => (ins t).*2).
  Proof.
    unfold inserted_values. induction ls as [|t ls IH]; intros Hq; [reflexivity|].
    cbn [mbind list_bind]. f_equal; [|apply IH; intros t' H; apply Hq; right; exact H]. rewrite <- logged_values. unfold ins, leaving. rewrite (Hq t) by left. destruct (c_prog t) as [|[]]; rewrite app_nil_r; reflexivity.
  Qed.
  Lemma result_ins (ls : list (cthread K V)) v p : result ls (CInsert v) (RInserted p) -> exists t, t ∈ ls /\ (p, v) ∈ ins t.
  Proof.
    intros (t & Ht & Hl). exists t. split; [exact Ht|]. unfold ins. apply elem_of_app. left. unfold logged. apply elem_of_list_omap. eexists. split; [exact Hl|]. reflexivity.
  Qed.

  Lemma top_no_duplicate s ls p q v w : Conc.reach step start (s, ls) -> entry s p v -> entry s q w -> keq (kf v) (kf w) = true -> p = q.
  Proof using All.
    intros R H1 H2 H3. destruct (top_reach s ls R) as (G & st & G' & F' & _ & _ & I & _). eapply (no_duplicates kf hash keq bc E kr ks kt Hh Hbc HE Hmax); eauto.
  Qed.
  Lemma top_persist s ls s' ls' p v : Conc.reach step start (s, ls) -> Conc.reach step (s, ls) (s', ls') -> entry s p v -> entry s' p v.
  Proof using All.
    intros R R2 He. destruct (top_reach s ls R) as (G & st & G' & F' & _ & _ & I & _). destruct (reach_cinv kf hash keq bc E kr ks kt Hh Hbc HE Hmax _ _ _ _ _ _ _ I R2) as (G2 & F2 & _ & _ & M). apply M. exact He.
  Qed.
  Lemma top_inserted s ls p v : Conc.reach step start (s, ls) -> result ls (CInsert v) (RInserted p) -> entry s p v.
  Proof using All.
    intros R Hr. destruct (top_reach s ls R) as (G & st & G' & F' & _ & _ & I & _). destruct (result_ins _ _ _ Hr) as (t & Ht & Hi).
    eapply (in_list_stored kf hash keq bc E kr ks kt Hh Hbc HE Hmax); [exact I|]. eapply (ci_ins _ _ _ _ _ _ _ _ _ _ I); eauto.
  Qed.
  Lemma top_distinct s ls M0 : Conc.reach step start (s, ls) -> content kf keq (shared_of u) M0 -> keys_distinct kf keq (M0 ++ inserted_values ls).
  Proof using All.
    intros R HM. destruct (top_reach s ls R) as (G & st & G' & F' & _ & I0 & I & _). pose proof (content_perm _ _ _ _ _ _ I0 start_quiescent HM) as HP.
    pose proof (content_distinct kf hash keq bc E kr ks kt Hh Hbc HE Hmax _ _ _ _ _ I) as KD.
    destruct (submseteq_Permutation _ _ (inserted_sub ls)) as [rest HR].
    apply (kd_app_l kf keq _ rest). eapply (kd_perm_iff kf hash keq true (seq 0) (fun n => reflexivity _) kr ks kt Hh bc E Hbc HE Hmax); [|exact KD]. rewrite HP, <- app_assoc, HR. reflexivity.
  Qed.
  Lemma top_content s ls M0 : Conc.reach step start (s, ls) -> c_quiescent ls -> content kf keq (shared_of u) M0 ->
    content kf keq s (M0 ++ inserted_values ls) /\ c_count s = Z.of_nat (length (M0 ++ inserted_values ls)).
  Proof using All.
    intros R Hq HM. destruct (top_reach s ls R) as (G & st & G' & F' & _ & I0 & I & _). pose proof (content_perm _ _ _ _ _ _ I0 start_quiescent HM) as HP.
    assert (HP2 : M0 ++ inserted_values ls ≡ₚ G' ≫= gvals) by (rewrite HP, (inserted_eq _ Hq); symmetry; apply (ci_cons _ _ _ _ _ _ _ _ _ _ I)).
    split; [split|].
    - eapply top_distinct; eauto.
    - intros v. rewrite HP2. apply (perm_content _ _ _ _ _ I Hq).
    - rewrite HP2. rewrite (ci_count _ _ _ _ _ _ _ _ _ _ I). rewrite sumZ_zero; [lia|]. intros t Ht. unfold pend. rewrite (Hq t Ht). reflexivity.
  Qed.
  Lemma top_origin s ls p v : Conc.reach step start (s, ls) -> entry s p v ->
    (exists p0, entry (shared_of u) p0 v) \/ (exists p0, result ls (CInsert v) (RInserted p0)) \/ (exists t rest, t ∈ ls /\ c_prog t = CInsert v :: rest /\ c_pc t <> UIdle).
  Proof using All.
    intros R He. destruct (top_reach s ls R) as (G & st & G' & F' & _ & I0 & I & _).
    destruct (occupied_where kf hash keq bc E kr ks kt Hh Hbc HE Hmax _ s ls G' F' p I (proj2 He)) as (v' & Hv' & [W|(t & e & rest & Ht & Hc & Hpr)]).
    2: { right. right. exists t, rest. assert (v' = v) as -> by (destruct He, Hv'; congruence). split; [exact Ht|]. split; [exact Hpr|]. rewrite Hc. discriminate. }
    assert (v' = v) as -> by (destruct He, Hv'; congruence). pose proof (content_in _ _ _ W) as Hin. rewrite (ci_cons _ _ _ _ _ _ _ _ _ _ I) in Hin. apply elem_of_app in Hin as [Hin|Hin].
    - left. destruct (in_content _ _ Hin) as [p0 H0]. exists p0. eapply (in_list_stored kf hash keq bc E kr ks kt Hh Hbc HE Hmax); eauto.
    - right. apply elem_of_list_bind in Hin as (t & Hin & Ht). apply elem_of_list_fmap in Hin as ([q w] & Hw & Hin). cbn in Hw. subst w. unfold ins in Hin. apply elem_of_app in Hin as [Hin|Hin].
      + left. unfold logged in Hin. apply elem_of_list_omap in Hin as ([[w|k|k] [q'| | |]] & Hl & Hx); try discriminate. injection Hx as -> ->. exists q, t. auto.
      + right. unfold leaving in Hin. destruct (c_prog t) as [|[w|k|k] rest] eqn:Epr; [inversion Hin| |inversion Hin..]. exists t, rest.
        destruct (c_pc t) as [| | | | | | | | | | | | | | | | |[q'|]| | | | | | | |e [q'|]| | | | | | | | | | | | | | | | | |]; try (inversion Hin; fail);
        apply elem_of_list_singleton in Hin; injection Hin as <- <-; (split; [exact Ht|]); (split; [exact Epr|discriminate]).
  Qed.
  Lemma top_found s ls k p : Conc.reach step start (s, ls) -> result ls (CFind k) (RFound (Some p)) -> exists v, entry s p v /\ keq (kf v) k = true.
  Proof using All.
    intros R (t & Ht & Hl). destruct (top_reach s ls R) as (G & st & G' & F' & _ & I0 & I & _).
    refine (found_reach kf hash keq bc E kr ks kt Hh Hbc HE Hmax _ _ _ _ _ _ _ I0 _ R t k p Ht Hl).
    intros t' k' p' Ht' Hl'. destruct (c_start_in progs t' Ht') as (_ & H & _). rewrite H in Hl'. inversion Hl'.
  Qed.
  Lemma top_find s ls s' ls' i t k rest p v : Conc.reach step start (s, ls) -> ls !! i = Some t -> c_pc t = UIdle -> c_prog t = CFind k :: rest ->
    entry (shared_of u) p v \/ result ls (CInsert v) (RInserted p) -> keq (kf v) k = true -> Conc.reach step (s, ls) (s', ls') ->
    exists t', ls' !! i = Some t' /\ ((c_prog t' = c_prog t /\ c_log t' = c_log t) \/ exists more, c_log t' = c_log t ++ (CFind k, RFound (Some p)) :: more).
  Proof using All.
    intros R Hi Hpc Hpr Hv Hkk R2. destruct (top_reach s ls R) as (G & st & G' & F' & _ & I0 & I & X & _).
    assert (Hin : in_list G' p v).
    { destruct Hv as [Hv|Hv]; [eapply gext_in; [exact X|]; eapply entry_in; [exact I0|apply start_quiescent|exact Hv]|].
      destruct (result_ins _ _ _ Hv) as (t' & Ht' & Hi'). eapply (ci_ins _ _ _ _ _ _ _ _ _ _ I); eauto. }
    destruct (hunting_reach kf hash keq bc E kr ks kt Hh Hbc HE Hmax _ s ls G' F' s' ls' k rest (c_log t) p v i t I Hin Hkk R2 Hi) as (t' & Hi' & Hh').
    - left. split; [exact Hpr|]. split; [reflexivity|]. intros Hlt. split; [|left; exact Hpc].
      destruct Hin as (b & g & Hg & [[-> Hx]|Hx]).
      + rewrite <- (ci_bkt _ _ _ _ _ _ _ _ _ _ I b g v Hg); [unfold bkt; rewrite (Hh _ _ Hkk); reflexivity|]. unfold gvals. rewrite Hx. left.
      + exfalso. assert (Hx2 : p ∈ gpos g) by (unfold gpos; apply elem_of_list_fmap; exists (p, v); auto).
        pose proof (cf_chain_range kf hash keq bc E kr ks kt Hh Hbc HE Hmax _ s ls G' F' I b g p Hg Hx2). lia.
    - exists t'. split; [exact Hi'|]. destruct Hh' as [(H1 & H2 & _)|Hm]; [left; split; congruence|right; exact Hm].
  Qed.
  Lemma top_progress s ls i t : Conc.reach step start (s, ls) -> ls !! i = Some t -> c_prog t <> [] -> step i s t <> None.
  Proof using All.
    intros R Hi Hne. destruct (top_reach s ls R) as (G & st & G' & F' & _ & _ & I & _).
    destruct (progress kf hash keq bc E kr ks kt Hh Hbc HE Hmax _ s ls G' F' i t I Hi Hne) as (s' & t' & ->). discriminate.
  Qed.
  Lemma top_refused s ls s' i t t' v : Conc.reach step start (s, ls) -> ls !! i = Some t -> step i s t = Some (s', t') -> c_log t' = c_log t ++ [(CInsert v, RNotInserted)] ->
    c_count s = Z.of_nat n \/ clamp_size (Z.of_nat E) (q_c (c_ex s)) = 0 \/ exists p w, entry s p w /\ keq (kf w) (kf v) = true.
  Proof using All.
    intros R Hi Hst Hl. destruct (top_reach s ls R) as (G & st & G' & F' & _ & _ & I & _).
    destruct (step_log kf hash keq bc E kr ks kt Hh Hbc HE Hmax _ s ls G' F' i t s' t' I Hi Hst) as [[El _]|(op & r & El & _ & Hr & _)].
    - rewrite El in Hl. apply (f_equal length) in Hl. rewrite app_length in Hl. cbn in Hl. lia.
    - rewrite El in Hl. apply app_inv_head in Hl. injection Hl as -> ->. cbn in Hr. rewrite (ci_lo _ _ _ _ _ _ _ _ _ _ I) in Hr. exact Hr.
  Qed.

  Lemma top_excess_length s ls : Conc.reach step start (s, ls) -> length (q_occ (c_ex s)) = E.
  Proof using All. intros R. destruct (top_reach s ls R) as (G & st & G' & F' & _ & _ & I & _). apply (i_len _ _ _ _ _ _ (ci_vec _ _ _ _ _ _ _ _ _ _ I)). Qed.

  (** with at least as many free excess entries as insert calls *)
  Hypothesis Hroom : Z.of_nat (insert_calls progs) <= v_size (u_excess u).
  Lemma top_budget s ls : Conc.reach step start (s, ls) -> budget E s ls /\ refused_ok kf keq s ls.
  Proof using All.
    intros R. destruct top_start as (G & st & Ru & I0). eapply (budget_reach kf hash keq bc E kr ks kt Hh Hbc HE Hmax _ _ _ _ _ _ _ I0); [| |exact R].
    - pose proof (ur_ex _ _ _ _ _ _ _ _ _ _ Ru) as RE. unfold budget. rewrite insert_calls_sum. cbn [shared_of c_ex q_c].
      pose proof (r_le _ _ _ _ RE). unfold v_size in Hroom. rewrite (rep_cap true _ _ _ RE) in Hroom. rewrite (r_n _ _ _ _ RE) in *. unfold clamp_size in Hroom.
      destruct (Z.ltb_spec (Z.of_nat (length (Z.of_nat <$> st))) 0); [lia|]. destruct (Z.ltb_spec (Z.of_nat E) (Z.of_nat (length (Z.of_nat <$> st)))); lia.
    - intros t v Ht Hl. destruct (c_start_in progs t Ht) as (_ & H & _). rewrite H in Hl. inversion Hl.
  Qed.
  Lemma top_room s ls v : Conc.reach step start (s, ls) -> result ls (CInsert v) RNotInserted -> exists p w, entry s p w /\ keq (kf w) (kf v) = true.
  Proof using All. intros R (t & Ht & Hl). destruct (top_budget s ls R) as [_ H]. eapply H; eauto. Qed.
  Lemma top_quiet s ls M0 : Conc.reach step start (s, ls) -> c_quiescent ls -> content kf keq (shared_of u) M0 ->
    u_valid kf hash keq ord (utab_of bc (u_indices u) s) = Ret true /\
    forall ops, Forall (uop_ok (Z.of_nat bc)) ops -> exists u' rs M (bucket : K -> Z), u_run kf hash keq true ord fuel (utab_of bc (u_indices u) s) ops = Ret (u', rs) /\
      (forall k, u_bucket hash (utab_of bc (u_indices u) s) k = Ret (bucket k)) /\ exists M1, M1 ≡ₚ M0 ++ inserted_values ls /\ spec_urun kf keq bucket (Z.of_nat n) M1 ops rs M.
  Proof using All.
    intros R Hq HM. destruct (top_reach s ls R) as (G & st & G' & F' & Ru & I0 & I & _). pose proof (content_perm _ _ _ _ _ _ I0 start_quiescent HM) as HP.
    destruct (top_budget s ls R) as [[B1 B2] _]. pose proof (sumZ_nonneg need ls (fun t _ => need_nonneg bc E Hbc HE Hmax t)) as B0.
    destruct (quiet_urep kf hash keq bc E kr ks kt Hh Hbc HE Hmax _ s ls G' F' (u_indices u) I Hq ltac:(lia) (ur_li _ _ _ _ _ _ _ _ _ _ Ru)) as (st' & R').
    split; [eapply (valid_rep kf hash keq true ord Ho kr ks kt Hh bc E Hbc HE Hmax); exact R'|].
    intros ops Hops. destruct (run_sim kf hash keq true ord Ho kr ks kt Hh bc E Hbc HE Hmax fuel ops Hf Hops _ _ _ R') as (u' & rs & rs' & G2 & st2 & E1 & _ & _ & _ & Hs).
    exists u', rs, (G2 ≫= gvals), (fun k => Z.of_nat (bkt hash bc k)). split; [exact E1|]. split.
    - intros k. eapply (bucket_rep kf hash keq true ord Ho kr ks kt Hh bc E Hbc HE Hmax). exact R'.
    - assert (HP2 : M0 ++ inserted_values ls ≡ₚ G' ≫= gvals) by (rewrite HP, (inserted_eq _ Hq); symmetry; apply (ci_cons _ _ _ _ _ _ _ _ _ _ I)).
      exists (G' ≫= gvals). split; [symmetry; exact HP2|exact Hs].
  Qed.
End top.
