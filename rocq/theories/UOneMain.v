(** Kernels in which one thread erases and any number of threads insert: every step is defined and keeps the invariant (C67). *)
From Verif Require Import Base Conc SlotModel SlotSpec SlotProofs VectorModel VectorProofs VectorConcProofs UnorderedModel UnorderedSpec UnorderedProofs UConcModel UConcSpec UConcProofs UConcEnd UEraseModel UEraseProofs UMixVec UMixShape UOneVec UOneDefs UOneUpd UOneStep UOneLink.

Section main.
  Context {K V : Type} (kf : V -> K) (hash : K -> Z) (keq : K -> K -> bool) (bc E : nat).
  Hypothesis HP : key_equality keq /\ hash_respects keq hash /\ sizes_ok bc E.
  Context (ie : nat) (M0 : list V).
  Notation n := (bc + E)%nat.
  Notation bkt := (bkt hash bc).
  Notation inC := (inC bc).
  Notation oinv := (oinv kf hash keq bc E ie M0).
  Notation heldt := (heldt kf hash bc).
  Notation thr := (thr kf hash keq bc E ie).
  Notation kn := (kn kf hash keq bc E).
  Notation flat C := (C ≫= (fun l : list nat => l)).
  Notation step := (estep kf hash keq bc E).
  Implicit Types (s : cshared V) (t : cthread K V) (ls : list (cthread K V)) (C : list (list nat)) (F X : list nat) (R : list V) (op : cop K V).
  Local Notation HB := (mx_bkt hash keq bc E HP).
  Local Notation SL l := (l kf hash keq bc E HP ie M0) (only parsing).
  Local Notation FL l := (l kf hash keq bc E ie M0) (only parsing).

  Section one_step.
    Context s ls C F X R i t op rest (I : oinv s ls C F X R) (Hi : ls !! i = Some t) (Ep : c_prog t = op :: rest).
    Notation b := (bkt (op_key kf op)).
    Definition good s' t' : Prop := exists C' F' X' R', oinv s' (<[i := t']> ls) C' F' X' R'.
    Definition next : Prop := exists s' t', step i s t = Some (s', t') /\ good s' t'.
    Lemma step_as r : ustep kf hash keq bc E i s t = Some r -> (match c_pc t with XDesB _ | XDes _ _ => False | _ => True end) -> good r.1 r.2 -> next.
    Proof using. intros H1 H2 H3. exists r.1, r.2. split; [|exact H3]. unfold estep. destruct (c_pc t); try contradiction; rewrite H1; destruct r; reflexivity. Qed.
    Ltac st := unfold ustep; rewrite Ep, (mx_bucket hash keq bc E HP).
    Ltac keep := exists C, F, X, R.
    Ltac togo Epc := refine (SL go s ls C F X R i t _ rest I Hi Ep _ _ _ _ _ _ _ _); rewrite ?Epc; try reflexivity; try (left; reflexivity).
    Ltac tofin Epc := refine (SL fin s ls C F X R i t _ rest I Hi Ep _ _ _ _ _ _ _ _ _); rewrite ?Epc; try reflexivity; try discriminate.

    Lemma on_behind x : on C b x -> x <> b -> x ∈ ch C b.
    Proof using. intros (P1 & P2 & EC & ->) Hne. pose proof (lend_elem b P1) as H. apply elem_of_cons in H as [H|H]; [congruence|]. rewrite EC. apply elem_of_app. auto. Qed.
    Lemma before_behind q p : before C b q p -> p ∈ ch C b.
    Proof using. intros (P1 & P2 & EC & ->). rewrite EC. apply elem_of_app. right. left. Qed.

    (** find() inside the calls *)
    Lemma after_hit c x : c_pc t = FVal c x -> (x < n)%nat -> fk kf hash bc E s C op c x -> hit kf keq s x (op_key kf op) -> (forall p, c = FErB p -> x = p -> c_occ s !! p = Some true) -> good s (after_find t op b c (Some x)).
    Proof using HP I Hi Ep.
      intros Epc Hx Hf Hh Ho. keep. pose proof (HB (op_key kf op)) as Hb. destruct c; cbn [after_find fk] in *.
      - tofin Epc.
      - tofin Epc.
      - togo Epc. exact Hf.
      - togo Epc. cbn [UOneDefs.kn]. destruct Hf as (H1 & H2 & _). auto.
      - destruct Hf as [H1 H2]. case_bool_decide as Hd; togo Epc; cbn [UOneDefs.kn]; [auto|]. cbn [entry_of pk]. split; [exact H1|]. split; [reflexivity|]. split; [|exact Logic.I]. apply f_ahead_start. apply on_behind; assumption.
      - destruct Hf as [H1 H2]. case_bool_decide as Hd; togo Epc; cbn [UOneDefs.kn]; [|auto]. injection Hd as ->. split; [exact H1|]. split; [exact H2|]. split; [apply Ho; reflexivity|exact Hh].
      - destruct Hf as [H1 H2]. togo Epc. cbn [UOneDefs.kn entry_of pk]. split; [exact H1|]. split; [reflexivity|]. split; [apply f_ahead_start; eapply before_behind; exact H2|]. split; [exact H2|].
        intros Hd. apply bool_decide_eq_true in Hd. injection Hd as ->. exact Hh.
    Qed.
    Lemma after_none c x : c_pc t = FOff c x -> (x < n)%nat -> fk kf hash bc E s C op c x -> good s (after_find t op b c None).
    Proof using HP I Hi Ep.
      intros Epc Hx Hf. keep. pose proof (HB (op_key kf op)) as Hb. destruct c; cbn [after_find fk] in *.
      - tofin Epc.
      - togo Epc. exact Hf.
      - togo Epc. exact Hf.
      - destruct Hf as (H1 & H2 & H3). case_bool_decide as Hd; togo Epc; cbn [UOneDefs.kn]; [| |auto].
        + right. split; [reflexivity|]. exists [QPop KPopBack]. split; [reflexivity|]. intros qo Hq. apply elem_of_list_singleton in Hq as ->. reflexivity.
        + split; [exact H1|]. split; [apply H3; exact Hd|]. split; reflexivity.
      - tofin Epc.
      - destruct Hf as [H1 H2]. rewrite bool_decide_eq_false_2 by discriminate. togo Epc. cbn [UOneDefs.kn]. auto.
      - destruct Hf as [H1 H2]. togo Epc. cbn [UOneDefs.kn entry_of pk]. split; [exact H1|]. split; [reflexivity|]. split; [apply f_ahead_start; eapply before_behind; exact H2|]. split; [exact H2|].
        rewrite bool_decide_eq_false_2 by discriminate. discriminate.
    Qed.
    Lemma again_go s' : s' = s -> isI op \/ isE op -> hand (c_pc t) = [] -> held b (c_pc t) = [] -> cpend (c_pc t) = 0 -> leavesI (c_pc t) = false -> leavesE (c_pc t) = false -> proj_at (c_pc t) = fresh_call [] -> good s' (again t b op).
    Proof using HP I Hi Ep.
      intros -> Ho H1 H2 H3 H4 H5 H6. keep. rewrite (UOneStep.again_go kf hash bc t op rest Ep). pose proof (SL kn_again s ls C F X R i t op rest I Hi Ep s Ho) as Hk.
      refine (SL go s ls C F X R i t op rest I Hi Ep _ _ _ _ _ _ _ Hk); rewrite ?H1, ?H2, ?H3, ?H4, ?H5, ?H6; destruct op; try reflexivity; left; reflexivity.
    Qed.
    Lemma again_give x : (x < n)%nat -> isI op \/ isE op -> hand (c_pc t) = [] -> held b (c_pc t) = [x] -> cpend (c_pc t) = 0 -> leavesI (c_pc t) = false -> leavesE (c_pc t) = false -> proj_at (c_pc t) = fresh_call [] -> good (put_lock s x false) (again t b op).
    Proof using HP I Hi Ep.
      intros Hx Ho H1 H2 H3 H4 H5 H6. keep. rewrite (UOneStep.again_go kf hash bc t op rest Ep). pose proof (SL kn_again s ls C F X R i t op rest I Hi Ep s Ho) as Hk.
      refine (SL give s ls C F X R i t op rest I Hi Ep x _ Hx _ _ _ _ _ _ Hk); rewrite ?H1, ?H2, ?H3, ?H4, ?H5, ?H6; destruct op; reflexivity.
    Qed.

    Lemma ostep_at : next.
    Proof using HP I Hi Ep.
      pose proof (FL s_kn s ls C F X R i t op rest I Hi Ep) as Hk. pose proof (HB (op_key kf op)) as Hb. assert (Hbn : (b < n)%nat) by lia.
      pose proof (FL f_off s ls C F X R I) as Foff. pose proof (FL f_next s ls C F X R I) as Fnext. pose proof (FL f_occ s ls C F X R I) as Focc. pose proof (FL f_lock s ls C F X R I) as Flock. pose proof (FL f_value s ls C F X R I) as Fval. pose proof (FL f_inC s ls C F X R I) as FinC.
      assert (Fbef : forall q p, before C b q p -> (q < n)%nat /\ (p < n)%nat). { intros q p H. destruct (before_inC bc C b q p Hb H) as [H1 H2]. split; [apply FinC; exact H1|apply FinC; right; exact H2]. }
      destruct (c_pc t) as [| | |c x|c x|c x|c x|c x|c x|c x pv|c x pv| | | | | | |r|e|e q|e p|e p|e p|e p|e p|e r|p|p|p|p|p ok|p q|p q|p|p q|p q|p q o|p q o|p q|p q|p q|p q x|p q ok|q ok] eqn:Epc; cbn [UOneDefs.kn] in Hk.
      - (* UIdle *) eapply step_as; [st; rewrite Epc; reflexivity|rewrite Epc; exact Logic.I|]. cbn [fst snd]. keep. destruct op; togo Epc; cbn [UOneDefs.kn fk isI isE isF]; auto. split; [exact Hbn|]. split; [exact Logic.I|apply f_on_start].
      - (* UFullCheck *) eapply step_as; [st; rewrite Epc; reflexivity|rewrite Epc; exact Logic.I|]. cbn [fst snd]. keep. case_match; [tofin Epc|togo Epc; exact Hk].
      - eapply step_as; [st; rewrite Epc; reflexivity|rewrite Epc; exact Logic.I|]. cbn [fst snd]. keep. case_match; [tofin Epc|togo Epc]. cbn [UOneDefs.kn fk]. auto.
      - (* FOcc *) destruct Hk as [Hx Hf]. destruct (Focc x Hx) as [o Ho]. eapply step_as; [st; rewrite Epc, Ho; reflexivity|rewrite Epc; exact Logic.I|]. cbn [fst snd]. keep. destruct o; togo Epc; cbn [UOneDefs.kn]; [|auto].
        split; [exact Hx|]. split; [exact Hf|]. split; [exact (o_val _ _ _ _ _ _ _ _ _ _ _ _ _ I x Ho)|]. destruct c; auto. intros <-. exact Ho.
      - (* FVal *) destruct Hk as (Hx & Hf & (v & Hv) & Ho). eapply step_as; [st; rewrite Epc, Hv; reflexivity|rewrite Epc; exact Logic.I|]. cbn [fst snd]. destruct (keq (kf v) (op_key kf op)) eqn:Ek.
        + apply after_hit; auto; [exists v; auto|]. intros p -> Hxp. apply Ho. exact Hxp.
        + keep. togo Epc. cbn [UOneDefs.kn]. auto.
      - (* FOff *) destruct Hk as [Hx Hf]. destruct (Foff x Hx) as [o Ho]. eapply step_as; [st; rewrite Epc, Ho; reflexivity|rewrite Epc; exact Logic.I|]. cbn [fst snd]. destruct (o =? 0); [eapply after_none; eauto|]. keep. togo Epc. cbn [UOneDefs.kn]. auto.
      - (* FAdd *) destruct Hk as [Hx Hf]. destruct (Foff x Hx) as [o Ho]. destruct (Fnext x o Ho) as (j & Hj & Hjn & Hjx). eapply step_as; [st; rewrite Epc, Ho, Hj; reflexivity|rewrite Epc; exact Logic.I|]. cbn [fst snd]. keep. togo Epc. cbn [UOneDefs.kn]. split; [exact Hjn|].
        destruct c; cbn [fk] in *; auto. destruct Hf as [H1 H2]. split; [exact H1|]. destruct (decide (o = 0)) as [-> |Hne].
        * unfold nxt in Hjx. rewrite Ho in Hjx. injection Hjx as Hjx. assert (j = x) as -> by lia. exact H2.
        * destruct (FL f_on_next s ls C F X R I b x o Hb H2 Ho Hne) as (j' & H3 & _ & H4). rewrite Hj in H3. injection H3 as <-. exact H4.
      - (* EOff *) destruct Hk as (H1 & Hx & He). destruct (Foff x Hx) as [o Ho]. eapply step_as; [st; rewrite Epc, Ho; reflexivity|rewrite Epc; exact Logic.I|]. cbn [fst snd]. keep. destruct (o =? 0) eqn:E0; [|togo Epc; cbn [UOneDefs.kn]; auto].
        assert (o = 0) as -> by lia. destruct c as [|e]; cbn [after_end]; togo Epc; cbn [UOneDefs.kn]; [auto|]. split; [exact Hbn|]. cbn [fk]. destruct He as [H2 H3]. split; [exact H1|]. split; [exact H2|]. intros <-. split; [exact Ho|]. destruct H3 as [H3|H3]; [exact H3|]. exfalso. apply H3. constructor.
      - (* EAdd *) destruct Hk as (H1 & Hx & He). destruct (Foff x Hx) as [o Ho]. destruct (Fnext x o Ho) as (j & Hj & Hjn & Hjx). eapply step_as; [st; rewrite Epc, Ho, Hj; reflexivity|rewrite Epc; exact Logic.I|]. cbn [fst snd]. keep. togo Epc. cbn [UOneDefs.kn]. split; [exact H1|]. split; [exact Hjn|].
        destruct c as [|e]; cbn [ek] in *; [exact Logic.I|]. destruct He as [H2 [H3|H3]]; [auto|]. split; [exact H2|]. right. intros Hr. apply H3. eapply rtc_l; [exact Hjx|exact Hr].
      - (* POff *) destruct Hk as (H1 & -> & H3 & H4). destruct (FL f_ahead_next s ls C F X R I b x _ Hb H3) as (o & j & Ho & Hne & Hj & _). eapply step_as; [st; rewrite Epc, Ho; reflexivity|rewrite Epc; exact Logic.I|]. cbn [fst snd]. keep. rewrite (proj2 (Z.eqb_neq _ _)) by exact Hne. destruct c; togo Epc; cbn [UOneDefs.kn]; auto.
      - (* PAdd *) destruct Hk as (H1 & -> & H3 & H4). destruct (FL f_ahead_next s ls C F X R I b x _ Hb H3) as (o & j & Ho & Hne & Hj & Hcase). eapply step_as; [st; rewrite Epc, Ho, Hj; reflexivity|rewrite Epc; exact Logic.I|]. cbn [fst snd]. keep. destruct Hcase as [[-> Hbef]|[Hjp Hah]].
        + rewrite bool_decide_eq_true_2 by reflexivity. destruct c as [p|p q same]; cbn [after_prev entry_of pk] in *; [togo Epc; cbn [UOneDefs.kn]; auto|]. destruct H4 as [H4 H5]. destruct (Fbef _ _ H4). destruct (same && bool_decide (q = x)) eqn:Es; togo Epc; cbn [UOneDefs.kn]; [|auto]. apply andb_prop in Es as [Es _]. auto.
        + rewrite bool_decide_eq_false_2 by exact Hjp. destruct c; togo Epc; cbn [UOneDefs.kn]; auto.
      - (* IOcc *) destruct (Focc b Hbn) as [o Ho]. eapply step_as; [st; rewrite Epc, Ho; reflexivity|rewrite Epc; exact Logic.I|]. cbn [fst snd]. keep. destruct o; togo Epc; cbn [UOneDefs.kn ek]; auto.
      - (* ILockB *) destruct (Flock b Hbn) as [o Ho]. destruct o; (eapply step_as; [st; rewrite Epc, Ho; reflexivity|rewrite Epc; exact Logic.I|]); cbn [fst snd].
        + apply again_go; rewrite ?Epc; auto.
        + keep. refine (SL take s ls C F X R i t op rest I Hi Ep b _ Hbn Ho _ _ _ _ _ _ _); rewrite ?Epc; try reflexivity; [left; reflexivity|]. cbn [UOneDefs.kn fk]. auto.
      - (* IOccB *) destruct (Focc b Hbn) as [o Ho]. eapply step_as; [st; rewrite Epc, Ho; reflexivity|rewrite Epc; exact Logic.I|]. cbn [fst snd]. keep. destruct o; togo Epc; cbn [UOneDefs.kn]; auto.
      - (* IConB *) destruct Hk as [H1 H2]. destruct op as [v| |]; try contradiction. destruct (Fval _ Hbn) as [o Ho]. eapply step_as; [st; rewrite Epc, Ho; reflexivity|rewrite Epc; exact Logic.I|]. cbn [fst snd]. keep.
        refine (SL construct s ls C F X R i t _ rest I Hi Ep _ v _ _ H2 _ _ _ _ _ _ _); rewrite ?Epc; try reflexivity; [eapply own_head; eauto; left|]. cbn [UOneDefs.kn]. split; [cbn; apply list_lookup_insert; eapply lookup_lt_Some; exact Ho|exact H2].
      - (* ICntB *) eapply step_as; [st; rewrite Epc; reflexivity|rewrite Epc; exact Logic.I|]. cbn [fst snd]. keep. refine (SL count s ls C F X R i t op rest I Hi Ep 1 _ _ _ _ _ _ _ _); rewrite ?Epc; try reflexivity. exact Hk.
      - (* ISetB *) destruct Hk as [H1 H2]. eapply step_as; [st; rewrite Epc, H2; reflexivity|rewrite Epc; exact Logic.I|]. cbn [fst snd]. keep. destruct op as [v| |]; try contradiction. cbn [own_value] in H1.
        refine (SL occupy s ls C F X R i t _ rest I Hi Ep _ v _ _ eq_refl H1 H2 _ _ _ _ _ _ _ _); rewrite ?Epc; try reflexivity; try exact Logic.I; eapply own_head; eauto; left.
      - (* IUnlB *) destruct (Flock b Hbn) as [o Ho]. eapply step_as; [st; rewrite Epc, Ho; reflexivity|rewrite Epc; exact Logic.I|]. cbn [fst snd]. destruct r as [p|].
        + keep. refine (SL give_fin s ls C F X R i t op rest I Hi Ep b _ Hbn _ _ _ _ _ _); rewrite ?Epc; try reflexivity; destruct op; try contradiction; auto; reflexivity.
        + apply again_give; rewrite ?Epc; auto.
      - (* ILockL *) destruct Hk as [H1 He]. destruct (Flock e He) as [o Ho]. destruct o; (eapply step_as; [st; rewrite Epc, Ho; reflexivity|rewrite Epc; exact Logic.I|]); cbn [fst snd].
        + apply again_go; rewrite ?Epc; auto.
        + keep. refine (SL take s ls C F X R i t op rest I Hi Ep e _ He Ho _ _ _ _ _ _ _); rewrite ?Epc; try reflexivity; [left; reflexivity|]. cbn [UOneDefs.kn ek]. split; [exact H1|]. split; [exact Hbn|]. split; [exact He|]. apply (FL f_start s ls C F X R I). exact Hb.
      - (* IPop *) destruct Hk as (H1 & H2 & H3). assert (Hpi : (projt <$> ls) !! i = Some q) by (rewrite list_lookup_fmap, Hi; unfold projt; cbn; rewrite Epc; reflexivity).
        pose proof (o_vec _ _ _ _ _ _ _ _ _ _ _ _ _ I) as HV. destruct (not_stuck (vctl E) E vm (fun _ => True) _ _ _ i q HV Hpi) as (y & q' & Hq); [destruct H3 as [-> _]; discriminate|].
        pose proof (SL vec s ls C F X R i t op rest I Hi Ep y) as HVec. pose proof (FL vec_others s ls C F X R i I q y q' Hpi Hq) as Hoth. rewrite Epc in HVec.
        assert (Hend : c_off (put_ex s y) !! e = Some 0 /\ inC C e) by exact H2.
        destruct (vec_pop_many E ie F _ _ i q y q' HV (FL f_vthread s ls C F X R I) Hpi H3 Hq) as [[Hp' HV']|[(Ep' & Hl & HV')|(p & F' & Ep' & Hl & HF & HV')]].
        + eapply step_as; [st; rewrite Epc, Hq, (proj1 Hp'); reflexivity|rewrite Epc; exact Logic.I|]. cbn [fst snd]. keep. apply HVec; try reflexivity; try assumption; [exact (o_free _ _ _ _ _ _ _ _ _ _ _ _ _ I)|]. cbn [UOneDefs.kn]. auto.
        + eapply step_as with (r := (put_ex s y, cgo t (IUnlL e None))); [st; rewrite Epc, Hq, Ep'; destruct (last (q_log q')) as [[]|] eqn:El; try reflexivity; exfalso; eapply Hl; reflexivity|rewrite Epc; exact Logic.I|]. cbn [fst snd]. keep. apply HVec; try reflexivity; try assumption; [exact (o_free _ _ _ _ _ _ _ _ _ _ _ _ _ I)|]. cbn [UOneDefs.kn]. split; [exact H1|]. apply FinC. apply H2.
        + eapply step_as with (r := (put_ex s y, cgo t (IConL e p))); [st; rewrite Epc, Hq, Ep', Hl, (proj2 (Z.leb_le _ _)) by lia; rewrite Nat2Z.id; reflexivity|rewrite Epc; exact Logic.I|]. cbn [fst snd]. exists C, F', X, R.
          assert (Hfr : forall x, x ∈ F -> c_occ s !! x = Some false) by exact (o_free _ _ _ _ _ _ _ _ _ _ _ _ _ I).
          apply HVec; try reflexivity; try assumption.
          * cbn [hand app]. rewrite HF. reflexivity.
          * intros x Hx. apply Hfr. rewrite HF. right. exact Hx.
          * cbn [UOneDefs.kn]. split; [exact H1|]. split; [exact H2|]. apply Hfr. rewrite HF. left.
      - (* IConL *) destruct Hk as (H1 & H2 & H3). destruct op as [v| |]; try contradiction. assert (Hpt : p ∈ handt t) by (unfold handt; rewrite Epc; left). destruct (FL f_hand s ls C F X R I i t p Hi Hpt) as (Hr & HnC & _). destruct (Fval p ltac:(lia)) as [o Ho]. eapply step_as; [st; rewrite Epc, Ho; reflexivity|rewrite Epc; exact Logic.I|]. cbn [fst snd]. keep.
        refine (SL construct s ls C F X R i t _ rest I Hi Ep p v _ _ H3 _ _ _ _ _ _ _); rewrite ?Epc; try reflexivity; [left; exact Hpt|]. cbn [UOneDefs.kn]. split; [cbn; apply list_lookup_insert; eapply lookup_lt_Some; exact Ho|]. split; [exact H2|exact H3].
      - (* IOffL *) destruct Hk as (H1 & H2 & H3). assert (Hpt : p ∈ handt t) by (unfold handt; rewrite Epc; left). destruct (FL f_hand s ls C F X R I i t p Hi Hpt) as (Hr & HnC & _). destruct (Foff p ltac:(lia)) as [o Ho]. eapply step_as; [st; rewrite Epc, Ho; reflexivity|rewrite Epc; exact Logic.I|]. cbn [fst snd]. keep.
        refine (SL zero_off s ls C F X R i t op rest I Hi Ep p _ Hpt _ _ _ _ _ _ _); rewrite ?Epc; try reflexivity. cbn [UOneDefs.kn]. split; [exact H1|]. assert (Hep : p <> e) by (intros ->; apply HnC; apply H2). cbn. split; [rewrite list_lookup_insert_ne by exact Hep; exact H2|]. split; [exact H3|]. apply list_lookup_insert. eapply lookup_lt_Some. exact Ho.
      - (* ICntL *) eapply step_as; [st; rewrite Epc; reflexivity|rewrite Epc; exact Logic.I|]. cbn [fst snd]. keep. refine (SL count s ls C F X R i t op rest I Hi Ep 1 _ _ _ _ _ _ _ _); rewrite ?Epc; try reflexivity. exact Hk.
      - (* ISetL *) destruct Hk as (H1 & H2 & H3 & H4). assert (Hpt : p ∈ handt t) by (unfold handt; rewrite Epc; left). eapply step_as; [st; rewrite Epc, H3; reflexivity|rewrite Epc; exact Logic.I|]. cbn [fst snd]. keep. destruct op as [v| |]; try contradiction. cbn [own_value] in H1.
        refine (SL occupy s ls C F X R i t _ rest I Hi Ep p v _ _ eq_refl H1 H3 _ _ _ _ _ _ _ _); rewrite ?Epc; try reflexivity; [left; exact Hpt|]. cbn [UOneDefs.kn]. split; [exact H1|]. split; [exact H2|]. split; [cbn; apply list_lookup_insert; eapply lookup_lt_Some; exact H3|exact H4].
      - (* ILinkL *) destruct Hk as (H1 & [H2 H2'] & H3 & H4). eapply step_as; [st; rewrite Epc, H2; reflexivity|rewrite Epc; exact Logic.I|]. cbn [fst snd]. destruct op as [v| |]; try contradiction.
        destruct (SL link_in s ls C F X R i t _ rest I Hi Ep e p v (IUnlL e (Some p)) eq_refl) as [C' HC']; rewrite ?Epc; auto.
        + rewrite (s_held0 kf hash bc t _ rest Ep), Epc. left.
        + intros s' C'. split; [exact Logic.I|]. apply FinC. exact H2'.
        + exists C', F, X, R. exact HC'.
      - (* IUnlL *) destruct Hk as [H1 He]. destruct (Flock e He) as [o Ho]. eapply step_as; [st; rewrite Epc, Ho; reflexivity|rewrite Epc; exact Logic.I|]. cbn [fst snd]. destruct r as [p|].
        + keep. refine (SL give_fin s ls C F X R i t op rest I Hi Ep e _ He _ _ _ _ _ _); rewrite ?Epc; try reflexivity; destruct op; try contradiction; auto; reflexivity.
        + apply again_give; rewrite ?Epc; auto.
      - (* XLockB *) destruct Hk as [H1 ->]. destruct (Flock b Hbn) as [o Ho]. destruct o; (eapply step_as; [st; rewrite Epc, Ho; reflexivity|rewrite Epc; exact Logic.I|]); cbn [fst snd].
        + apply again_go; rewrite ?Epc; auto.
        + keep. refine (SL take s ls C F X R i t op rest I Hi Ep b _ Hbn Ho _ _ _ _ _ _ _); rewrite ?Epc; try reflexivity; [left; reflexivity|]. cbn [UOneDefs.kn fk]. auto.
      - (* XResetB *) destruct Hk as (H1 & -> & H3 & H4). eapply step_as; [st; rewrite Epc, H3; reflexivity|rewrite Epc; exact Logic.I|]. cbn [fst snd]. destruct op as [|k|]; try contradiction.
        destruct (SL vacate s ls C F X R i t _ rest I Hi Ep (bkt (op_key kf (CErase k : cop K V))) k (XCntB (bkt (op_key kf (CErase k : cop K V))))) as [R' HR']; rewrite ?Epc; auto.
        + eapply own_head; eauto. left.
        + intros Hin. apply (FL f_ge s ls C F X R I) in Hin. lia.
        + cbn [UOneDefs.kn]. split; [exact H1|]. split; [reflexivity|]. destruct H4 as (v & Hv & _). exists v. exact Hv.
        + exists C, F, X, R'. exact HR'.
      - (* XCntB *) eapply step_as; [st; rewrite Epc; reflexivity|rewrite Epc; exact Logic.I|]. cbn [fst snd]. keep. refine (SL count s ls C F X R i t op rest I Hi Ep (-1) _ _ _ _ _ _ _ _); rewrite ?Epc; try reflexivity. exact Hk.
      - (* XDesB *) destruct Hk as (H1 & H2 & v & Hv). exists s, (cgo t (XUnlB p true)). split; [unfold estep; rewrite Epc, Ep, Hv; reflexivity|]. keep. togo Epc. cbn [UOneDefs.kn]. auto.
      - (* XUnlB *) destruct Hk as [H1 ->]. destruct (Flock b Hbn) as [o Ho]. eapply step_as; [st; rewrite Epc, Ho; reflexivity|rewrite Epc; exact Logic.I|]. cbn [fst snd]. destruct ok.
        + keep. refine (SL give_fin s ls C F X R i t op rest I Hi Ep b _ Hbn _ _ _ _ _ _); rewrite ?Epc; try reflexivity; destruct op; try contradiction; auto; reflexivity.
        + apply again_give; rewrite ?Epc; auto.
      - (* XLock1 *) destruct Hk as [H1 H2]. destruct (Fbef _ _ H2) as [Hq Hp]. destruct (Flock p Hp) as [o Ho]. destruct o; (eapply step_as; [st; rewrite Epc, Ho; reflexivity|rewrite Epc; exact Logic.I|]); cbn [fst snd].
        + apply again_go; rewrite ?Epc; auto.
        + keep. refine (SL take s ls C F X R i t op rest I Hi Ep p _ Hp Ho _ _ _ _ _ _ _); rewrite ?Epc; try reflexivity; [left; reflexivity|]. cbn [UOneDefs.kn]. auto.
      - (* XLock2 *) destruct Hk as [H1 H2]. destruct (Fbef _ _ H2) as [Hq Hp]. destruct (Flock q Hq) as [o Ho]. destruct o; (eapply step_as; [st; rewrite Epc, Ho; reflexivity|rewrite Epc; exact Logic.I|]); cbn [fst snd].
        + keep. togo Epc. cbn [UOneDefs.kn]. auto.
        + keep. refine (SL take s ls C F X R i t op rest I Hi Ep q _ Hq Ho _ _ _ _ _ _ _); rewrite ?Epc; try reflexivity; [right; reflexivity|]. cbn [UOneDefs.kn fk]. auto.
      - (* XBack *) destruct Hk as [H1 Hp]. destruct (Flock p Hp) as [o Ho]. eapply step_as; [st; rewrite Epc, Ho; reflexivity|rewrite Epc; exact Logic.I|]. cbn [fst snd]. apply again_give; rewrite ?Epc; auto.
      - (* XTest *) destruct Hk as (H1 & H2 & H3). destruct (Fbef _ _ H2) as [Hq Hp]. destruct (Foff p Hp) as [o Ho]. eapply step_as; [st; rewrite Epc, Ho; reflexivity|rewrite Epc; exact Logic.I|]. cbn [fst snd]. keep. destruct (o =? 0) eqn:E0; togo Epc; cbn [UOneDefs.kn].
        + split; [exact H1|]. split; [exact H2|]. split; [exact H3|]. destruct (Foff q Hq) as [o' Ho']. exists o, o'. unfold unlink_offset. rewrite E0. auto.
        + split; [exact H1|]. split; [exact H2|]. split; [exact H3|]. exists o. split; [exact Ho|]. lia.
      - (* XAdd1 *) destruct Hk as (H1 & H2 & H3 & o & Ho & Hne). eapply step_as; [st; rewrite Epc, Ho; reflexivity|rewrite Epc; exact Logic.I|]. cbn [fst snd]. keep. togo Epc. cbn [UOneDefs.kn]. auto.
      - (* XAdd2 *) destruct Hk as (H1 & H2 & H3 & Ho & Hne). destruct (Fbef _ _ H2) as [Hq Hp]. destruct (Foff q Hq) as [o' Ho']. eapply step_as; [st; rewrite Epc, Ho'; reflexivity|rewrite Epc; exact Logic.I|]. cbn [fst snd]. keep. togo Epc. cbn [UOneDefs.kn].
        split; [exact H1|]. split; [exact H2|]. split; [exact H3|]. exists o, o'. split; [exact Ho|]. split; [exact Ho'|]. unfold unlink_offset. rewrite (proj2 (Z.eqb_neq _ _)) by exact Hne. reflexivity.
      - (* XPut *) destruct Hk as (H1 & H2 & H3 & po & qo & Hpo & Hqo & ->). destruct (Fbef _ _ H2) as [Hq Hp]. eapply step_as; [st; rewrite Epc, Hqo; reflexivity|rewrite Epc; exact Logic.I|]. cbn [fst snd]. destruct op as [|k|]; try contradiction.
        destruct (SL link_out s ls C F X R i t _ rest I Hi Ep p q po qo k (XReset p q) eq_refl) as [C' HC']; rewrite ?Epc; auto.
        + rewrite (s_held0 kf hash bc t _ rest Ep), Epc. left.
        + rewrite (s_held0 kf hash bc t _ rest Ep), Epc. right. left.
        + intros C'. cbn [UOneDefs.kn]. split; [exact H1|]. split; [exact Hq|]. split; [|exact H3]. apply (FL f_occ_linked s ls C F X R I). apply (before_inC bc C _ q p Hb H2).
        + exists C', F, X, R. exact HC'.
      - (* XReset *) destruct Hk as (H1 & Hq & H3 & H4). eapply step_as; [st; rewrite Epc, H3; reflexivity|rewrite Epc; exact Logic.I|]. cbn [fst snd]. destruct op as [|k|]; try contradiction. assert (Hpt : p ∈ handt t) by (unfold handt; rewrite Epc; left). destruct (FL f_hand s ls C F X R I i t p Hi Hpt) as (Hr & HnC & _).
        destruct (SL vacate s ls C F X R i t _ rest I Hi Ep p k (XCnt p q)) as [R' HR']; rewrite ?Epc; auto.
        + left. exact Hpt.
        + intros Hin. apply HnC. right. exact Hin.
        + cbn [UOneDefs.kn]. split; [exact H1|]. split; [exact Hq|]. split; [cbn; apply list_lookup_insert; eapply lookup_lt_Some; exact H3|]. destruct H4 as (v & Hv & _). exists v. exact Hv.
        + exists C, F, X, R'. exact HR'.
      - (* XCnt *) eapply step_as; [st; rewrite Epc; reflexivity|rewrite Epc; exact Logic.I|]. cbn [fst snd]. keep. refine (SL count s ls C F X R i t op rest I Hi Ep (-1) _ _ _ _ _ _ _ _); rewrite ?Epc; try reflexivity. exact Hk.
      - (* XDes *) destruct Hk as (H1 & Hq & H3 & v & Hv). exists s, (cgo t (XPush p q (push_call p))). split; [unfold estep; rewrite Epc, Ep, Hv; reflexivity|]. keep. togo Epc; cbn [UOneDefs.kn].
        + right. split; [reflexivity|]. exists [QPush KPushBack (Z.of_nat p)]. split; [reflexivity|]. intros qo Hqo. apply elem_of_list_singleton in Hqo as ->. reflexivity.
        + split; [exact H1|]. split; [exact Hq|]. split; [exact H3|]. split; [split; reflexivity|exact Logic.I].
      - (* XPush *) destruct Hk as (H1 & Hqn & H3 & H4 & H5). assert (Hpi : (projt <$> ls) !! i = Some x) by (rewrite list_lookup_fmap, Hi; unfold projt; cbn; rewrite Epc; reflexivity).
        assert (Hpt : p ∈ handt t) by (unfold handt; rewrite Epc; left). destruct (FL f_hand s ls C F X R I i t p Hi Hpt) as (Hr & HnC & _).
        pose proof (o_vec _ _ _ _ _ _ _ _ _ _ _ _ _ I) as HV. destruct (not_stuck (vctl E) E vm (fun _ => True) _ _ _ i x HV Hpi) as (y & x' & Hq); [destruct H4 as [-> _]; discriminate|].
        pose proof (SL vec s ls C F X R i t op rest I Hi Ep y) as HVec. pose proof (FL vec_others s ls C F X R i I x y x' Hpi Hq) as Hoth. rewrite Epc in HVec.
        assert (Hfr : forall x, x ∈ F -> c_occ s !! x = Some false) by exact (o_free _ _ _ _ _ _ _ _ _ _ _ _ _ I).
        destruct (vec_push_many E F _ _ i x p y x' HV Hpi H4 H5 Hq) as [(Hp' & Hw' & HV')|[Ep' [HV'|HV']]].
        + eapply step_as; [st; rewrite Epc, Hq, (proj1 Hp'); reflexivity|rewrite Epc; exact Logic.I|]. cbn [fst snd]. keep. apply HVec; try reflexivity; try assumption. cbn [UOneDefs.kn]. auto.
        + eapply step_as; [st; rewrite Epc, Hq, Ep'; reflexivity|rewrite Epc; exact Logic.I|]. cbn [fst snd]. exists C, (p :: F), X, R. apply HVec; try reflexivity; try assumption; [|cbn [UOneDefs.kn]; split; [exact H1|]; split; [lia|exact Hqn]]. intros z Hz. apply elem_of_cons in Hz as [-> |Hz]; [exact H3|apply Hfr; exact Hz].
        + eapply step_as; [st; rewrite Epc, Hq, Ep'; reflexivity|rewrite Epc; exact Logic.I|]. cbn [fst snd]. exists C, F, (p :: X), R. apply HVec; try reflexivity; try assumption; [|cbn [UOneDefs.kn]; split; [exact H1|]; split; [lia|exact Hqn]]. cbn [hand app]. solve_Permutation.
      - (* XUnl1 *) destruct Hk as (H1 & Hp & Hq). destruct (Flock p Hp) as [o Ho]. eapply step_as; [st; rewrite Epc, Ho; reflexivity|rewrite Epc; exact Logic.I|]. cbn [fst snd]. keep. refine (SL give s ls C F X R i t op rest I Hi Ep p _ Hp _ _ _ _ _ _ _); rewrite ?Epc; try reflexivity. cbn [UOneDefs.kn]. auto.
      - (* XUnl2 *) destruct Hk as [H1 Hq]. destruct (Flock q Hq) as [o Ho]. eapply step_as; [st; rewrite Epc, Ho; reflexivity|rewrite Epc; exact Logic.I|]. cbn [fst snd]. destruct ok.
        + keep. refine (SL give_fin s ls C F X R i t op rest I Hi Ep q _ Hq _ _ _ _ _ _); rewrite ?Epc; try reflexivity; destruct op; try contradiction; auto; reflexivity.
        + apply again_give; rewrite ?Epc; auto.
    Qed.
  End one_step.
End main.
