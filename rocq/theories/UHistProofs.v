(** Unordered containers used in phases (UHistSpec.v): every history is explained by the content. *)
From Verif Require Import Base Conc SlotModel SlotSpec SlotProofs VectorModel VectorProofs VectorConcProofs HashProofs UnorderedModel UnorderedSpec UnorderedProofs UConcModel UConcSpec UConcProofs UConcReach UConcFinal UConcEnd UConcTop UEraseModel UEraseSpec UEraseProofs UEraseFinal UEraseTop UHistSpec.

Section hist.
  Context {K V : Type} (kf : V -> K) (hash : K -> Z) (keq : K -> K -> bool) (ord : nat -> list nat) (bc E : nat).
  Hypothesis Hk : key_equality keq.
  Hypothesis Hh : hash_respects keq hash.
  Hypothesis Ho : any_order ord.
  Hypothesis Hsz : sizes_ok bc E.
  Context (fuel : nat).
  Hypothesis Hf : (2 <= fuel)%nat.
  Notation n := (bc + E)%nat.
  Notation L0 := (replicate n false).
  Notation bucketz := (fun k => Z.of_nat (bkt hash bc k)).
  Let kr : forall a, keq a a = true. Proof using Hk. apply Hk. Qed.
  Let ks : forall a b, keq a b = true -> keq b a = true. Proof using Hk. apply Hk. Qed.
  Let kt : forall a b c, keq a b = true -> keq b c = true -> keq a c = true. Proof using Hk. apply Hk. Qed.
  Let Hbc : (0 < bc)%nat. Proof using Hsz. apply Hsz. Qed.
  Let HE : (0 < E)%nat. Proof using Hsz. apply Hsz. Qed.
  Let Hmax : Z.of_nat n <= INT_MAX. Proof using Hsz. apply Hsz. Qed.
  Notation B f := (f kf hash keq bc E kr ks kt Hh Hbc HE Hmax).
  Notation urep := (urep kf hash keq true bc E L0).

  Lemma no_progs : inserts_and_lookups (K:=K) (V:=V) [].
  Proof. intros p op H. inversion H. Qed.
  Lemma rep_content u G st : urep u G st -> content kf keq (shared_of u) (G ≫= gvals).
  Proof using All.
    intros R. assert (I0 : cinv (K:=K) kf hash keq bc E (G ≫= gvals) (shared_of u) [] G st) by (refine (B start_cinv true u G st [] R _); intros p op H; inversion H).
    refine (perm_content kf hash keq true ord bc E Hk Hh Ho Hsz fuel Hf u (ex_intro _ G (ex_intro _ st R)) [] no_progs _ _ _ _ _ I0 _). intros t Ht. inversion Ht.
  Qed.
  Lemma rep_content_perm u G st M : urep u G st -> content kf keq (shared_of u) M -> M ≡ₚ G ≫= gvals.
  Proof using All.
    intros R HM. assert (I0 : cinv (K:=K) kf hash keq bc E (G ≫= gvals) (shared_of u) [] G st) by (refine (B start_cinv true u G st [] R _); intros p op H; inversion H).
    refine (UConcTop.content_perm kf hash keq true ord bc E Hk Hh Ho Hsz fuel Hf u (ex_intro _ G (ex_intro _ st R)) [] no_progs _ M _ _ _ _ I0 _ HM). intros t Ht. inversion Ht.
  Qed.
  Lemma shared_utab_content indices (s : cshared V) M : content kf keq s M -> content kf keq (shared_of (utab_of bc indices s)) M.
  Proof. intros H. exact H. Qed.
  Lemma answered_of step (Hl : logs_calls (K:=K) (V:=V) step) s0 progs s ls : Conc.reach step (s0, c_start progs) (s, ls) -> all_returned ls -> answered progs ls.
  Proof.
    intros R Ha. apply Forall2_same_length_lookup. split; [symmetry; eapply reach_len; eassumption|]. intros i prog t Hp Ht.
    destruct (prog_of step Hl s0 progs s ls i t R Ht) as (prog' & H1 & H2). assert (prog' = prog) as -> by congruence. rewrite (proj1 (Ha t (elem_of_list_lookup_2 _ _ _ Ht))), app_nil_r in H2. exact H2.
  Qed.
  Lemma all_quiet (ls : list (cthread K V)) : all_returned ls -> c_quiescent ls.
  Proof. intros H t Ht. apply (H t Ht). Qed.
  Lemma ended_content (s : cshared V) M : content kf keq s M -> content kf keq (ended s) M.
  Proof.
    intros [HC1 HC2]. split; [exact HC1|]. intros v. rewrite HC2. split; intros [p [H1 H2]]; exists p; (split; [|exact H2]).
    - rewrite (ended_lookup s p _ H1). apply lk_true in H2. rewrite H2. reflexivity.
    - cbn [ended c_values c_occ] in H1, H2. rewrite list_lookup_imap, H2 in H1. destruct (c_values s !! p) as [o|]; [|discriminate]. cbn in H1. congruence.
  Qed.

  Lemma insert_phase u G st progs s ls : urep u G st -> inserts_and_lookups progs -> Z.of_nat (insert_calls progs) <= v_size (u_excess u) ->
    Conc.reach (ustep kf hash keq bc E) (shared_of u, c_start progs) (s, ls) -> all_returned ls ->
    exists G' st', urep (utab_of bc (u_indices u) s) G' st' /\ spec_phase kf keq bc E bucketz (G ≫= gvals) (InsertKernel progs ls) (G' ≫= gvals).
  Proof using All.
    intros Ru Hp Hroom R Ha. assert (Hu : exists G st, urep u G st) by (exists G, st; exact Ru). pose proof (rep_content _ _ _ Ru) as HM.
    assert (HR' : exists G' st', urep (utab_of bc (u_indices u) s) G' st').
    { destruct (top_reach kf hash keq true ord bc E Hk Hh Ho Hsz fuel Hf u Hu progs Hp s ls R) as (G1 & st1 & G' & F' & Ru1 & I0 & I & _).
      destruct (top_budget kf hash keq true ord bc E Hk Hh Ho Hsz fuel Hf u Hu progs Hp Hroom s ls R) as [[B1 B2] _]. pose proof (sumZ_nonneg need ls (fun t _ => need_nonneg bc E Hbc HE Hmax t)) as B0.
      destruct (quiet_urep kf hash keq bc E kr ks kt Hh Hbc HE Hmax _ s ls G' F' (u_indices u) I (all_quiet _ Ha) ltac:(lia) (ur_li _ _ _ _ _ _ _ _ _ _ Ru)) as (st' & R'). eauto. }
    destruct HR' as (G' & st' & R'). exists G', st'. split; [exact R'|].
    destruct (top_content kf hash keq true ord bc E Hk Hh Ho Hsz fuel Hf u Hu progs Hp s ls _ R (all_quiet _ Ha) HM) as [HC _].
    pose proof (rep_content_perm _ _ _ _ R' (shared_utab_content (u_indices u) s _ HC)) as HP. pose proof (rep_content _ _ _ R') as [KD' HM'].
    assert (Hin : forall p v, entry s p v -> v ∈ G' ≫= gvals) by (intros p v He; apply HM'; exists p; exact He).
    split; [exact (answered_of _ (ustep_logs kf hash keq bc E) _ _ _ _ R Ha)|]. split; [symmetry; exact HP|]. split; [exact KD'|]. split; [|split].
    - intros v Hr. destruct (top_room kf hash keq true ord bc E Hk Hh Ho Hsz fuel Hf u Hu progs Hp Hroom s ls v R Hr) as (p & w & He & Hkw). exists w. eauto.
    - intros k p Hr. destruct (top_found kf hash keq true ord bc E Hk Hh Ho Hsz fuel Hf u Hu progs Hp s ls k p R Hr) as (w & He & Hkw). exists w. eauto.
    - intros k Hr (v & Hv & Hkv). apply HM in Hv as [p He]. destruct (result_log ls _ _ Hr) as (i & t & l1 & l2 & Hi & Hl).
      destruct (call_started _ (ustep_logs kf hash keq bc E) _ _ _ R i t Hi) as [_ H]. destruct (H l1 _ _ l2 Hl) as ([s1 ls1] & R1 & R2 & t1 & rest & Hi1 & Hc1 & Hp1 & Hl1).
      destruct (top_find kf hash keq true ord bc E Hk Hh Ho Hsz fuel Hf u Hu progs Hp s1 ls1 s ls i t1 k rest p v R1 Hi1 Hc1 Hp1 (or_introl He) Hkv R2) as (t' & Hi' & [[_ H1]|[more H1]]).
      + assert (t' = t) as -> by congruence. rewrite H1, Hl1 in Hl. rewrite <- (app_nil_r l1) in Hl at 1. apply app_inv_head in Hl. discriminate.
      + assert (t' = t) as -> by congruence. rewrite H1, Hl1 in Hl. apply app_inv_head in Hl. discriminate.
  Qed.
  Lemma erase_phase u G st progs s ls : urep u G st -> erases_and_lookups progs ->
    Conc.reach (estep kf hash keq bc E) (shared_of u, c_start progs) (s, ls) -> all_returned ls ->
    exists G' st', urep (utab_of bc (u_indices u) (ended s)) G' st' /\ spec_phase kf keq bc E bucketz (G ≫= gvals) (EraseKernel progs ls) (G' ≫= gvals).
  Proof using All.
    intros Ru Hp R Ha. assert (Hu : exists G st, urep u G st) by (exists G, st; exact Ru). pose proof (rep_content _ _ _ Ru) as HM.
    destruct (etop_rep kf hash keq ord bc E Hk Hh Ho Hsz fuel Hf u Hu progs Hp s ls R (all_quiet _ Ha)) as (G' & st' & R'). exists G', st'. split; [exact R'|].
    destruct (etop_content kf hash keq ord bc E Hk Hh Ho Hsz fuel Hf u Hu progs Hp s ls _ R (all_quiet _ Ha) HM) as [HC _].
    pose proof (rep_content_perm _ _ _ _ R' (shared_utab_content (u_indices u) _ _ (ended_content s _ HC))) as HP. 
    pose proof (fun k => start_present kf hash keq ord bc E Hk Hh Ho Hsz fuel Hf u Hu progs Hp (G ≫= gvals) k HM) as Hpr.
    assert (Hmono : forall c k p, Conc.reach (estep kf hash keq bc E) (shared_of u, c_start progs) c -> present_at kf hash keq bc c.1 k p -> holds kf keq (G ≫= gvals) k).
    { intros c k p Rc H. apply Hpr. exists p. exact (etop_mono kf hash keq ord bc E Hk Hh Ho Hsz fuel Hf u Hu progs Hp (shared_of u, c_start progs) c k p (rtc_refl _ _) Rc H). }
    assert (Hgone : forall k, ~ present kf hash keq bc s k -> ~ holds kf keq (G' ≫= gvals) k).
    { intros k Hn (v & Hv & Hkv). apply Hn. rewrite <- HP in Hv. apply HC in Hv as [p He]. exists p. exact (etop_rest_present kf hash keq ord bc E Hk Hh Ho Hsz fuel Hf u Hu progs Hp s ls p v k R (all_quiet _ Ha) He Hkv). }
    split; [exact (answered_of _ (estep_logs kf hash keq bc E) _ _ _ _ R Ha)|]. split; [symmetry; exact HP|]. split; [|split; [|split]].
    - intros k. destruct (etop_once kf hash keq ord bc E Hk Hh Ho Hsz fuel Hf u Hu progs Hp s ls k R) as [H1 H2]. split; [exact H1|]. intros H. apply Hpr. auto.
    - intros k Hr. apply Hgone. exact (etop_gone kf hash keq ord bc E Hk Hh Ho Hsz fuel Hf u Hu progs Hp s ls k R (or_intror (or_introl Hr))).
    - intros k p Hr. destruct (result_log ls _ _ Hr) as (i & t & l1 & l2 & Hi & Hl). destruct (etop_told kf hash keq ord bc E Hk Hh Ho Hsz fuel Hf u Hu progs Hp s ls i t l1 _ _ l2 R Hi Hl) as (s1 & ls1 & R1 & _ & _ & Ht). exact (Hmono _ _ _ R1 Ht).
    - intros k Hr. apply Hgone. exact (etop_gone kf hash keq ord bc E Hk Hh Ho Hsz fuel Hf u Hu progs Hp s ls k R (or_introl Hr)).
  Qed.
  Lemma spec_phases_snoc (bucket : K -> Z) M1 H M2 ph M3 : spec_phases kf keq bc E bucket M1 H M2 -> spec_phase kf keq bc E bucket M2 ph M3 -> spec_phases kf keq bc E bucket M1 (H ++ [ph]) M3.
  Proof.
    revert M1. induction H as [|ph' H IH]; intros M1 H1 H2.
    - cbn in H1. subst M2. exists M3. split; [exact H2|reflexivity].
    - destruct H1 as (M' & H1 & H3). exists M'. split; [exact H1|]. apply IH; assumption.
  Qed.
  Lemma history_rep H u : history kf hash keq ord fuel bc E H u -> exists G st, urep u G st /\ spec_phases kf keq bc E bucketz [] H (G ≫= gvals).
  Proof using All.
    induction 1 as [junk u Hc|H u ph u' _ IH Hp].
    - destruct (create_rep kf hash keq true ord Ho kr ks kt Hh bc E Hbc HE Hmax junk) as (u1 & E1 & R & _). assert (u1 = u) as -> by congruence. eexists _, _. split; [exact R|].
      cbn. apply G0_content.
    - destruct IH as (G & st & R & IH). assert (Hn : exists G' st', urep u' G' st' /\ spec_phase kf keq bc E bucketz (G ≫= gvals) ph (G' ≫= gvals)).
      { destruct Hp as [ops rs u' Hops Hr|progs s ls Hp Hroom Hr Ha|progs s ls Hp Hr Ha].
        - destruct (run_sim kf hash keq true ord Ho kr ks kt Hh bc E Hbc HE Hmax fuel ops Hf Hops u G st R) as (u1 & rs1 & rs' & G' & st' & E1 & R' & _ & _ & Hs). rewrite Hr in E1. injection E1 as <- <-. exists G', st'. auto.
        - eapply insert_phase; eassumption.
        - eapply erase_phase; eassumption. }
      destruct Hn as (G' & st' & R' & Hs). exists G', st'. split; [exact R'|]. eapply spec_phases_snoc; eassumption.
  Qed.
  Lemma history_good H u : history kf hash keq ord fuel bc E H u -> exists M (bucket : K -> Z), (forall k, u_bucket hash u k = Ret (bucket k)) /\ spec_phases kf keq bc E bucket [] H M /\
    content kf keq (shared_of u) M /\ u_valid kf hash keq ord u = Ret true.
  Proof using All.
    intros HH. destruct (history_rep H u HH) as (G & st & R & Hs). exists (G ≫= gvals), bucketz. split; [|split; [exact Hs|split]].
    - intros k. eapply (bucket_rep kf hash keq true ord Ho kr ks kt Hh bc E Hbc HE Hmax). exact R.
    - eapply rep_content. exact R.
    - eapply (valid_rep kf hash keq true ord Ho kr ks kt Hh bc E Hbc HE Hmax). exact R.
  Qed.
  Lemma history_calls H u ops : history kf hash keq ord fuel bc E H u -> Forall (uop_ok (Z.of_nat bc)) ops -> exists u' rs, u_run kf hash keq true ord fuel u ops = Ret (u', rs).
  Proof using All.
    intros HH Hops. destruct (history_rep H u HH) as (G & st & R & _). destruct (run_sim kf hash keq true ord Ho kr ks kt Hh bc E Hbc HE Hmax fuel ops Hf Hops u G st R) as (u1 & rs1 & rs' & G' & st' & E1 & _). eauto.
  Qed.
  Lemma history_urep H u : history kf hash keq ord fuel bc E H u -> exists G st, urep u G st.
  Proof using All. intros HH. destruct (history_rep H u HH) as (G & st & R & _). eauto. Qed.
End hist.
