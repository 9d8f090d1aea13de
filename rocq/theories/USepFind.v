(** Kernels whose keys do not collide (C78): when lookups take effect; equal keys are never stored twice. *)
From Verif Require Import Base Conc SlotModel VectorModel VectorProofs UnorderedModel UnorderedSpec UnorderedProofs UConcModel UConcSpec UConcProofs UEraseModel UEraseSpec UMixSpec UMixShape UMixTop UOneSpec UOneDefs UOneTop UProgSpec USepSpec USepProofs USepTop USepProg.

Section find.
  Context {K V : Type} (kf : V -> K) (hash : K -> Z) (keq : K -> K -> bool) (bc E : nat).
  Hypothesis HP : key_equality keq /\ hash_respects keq hash /\ sizes_ok bc E.
  Notation bkt := (UnorderedProofs.bkt hash bc).
  Notation bk op := (bkt (op_key kf op)).
  Notation step := (estep kf hash keq bc E).
  Implicit Types (s : cshared V) (t : cthread K V) (ls : list (cthread K V)) (h : list (nat * (cop K V * cret))) (op : cop K V).
  Definition distinct (M : nat -> option V) : Prop := forall p q v w, M p = Some v -> M q = Some w -> keq (kf v) (kf w) = true -> p = q.
  Lemma distinct_call M x M' : distinct M -> set_call kf keq M x M' -> distinct M'.
  Proof using HP.
    destruct HP as ((K1 & K2 & K3) & _). intros D Hc.
    assert (Hsame : same M M' -> distinct M') by (intros Hs p q v w; rewrite (Hs p), (Hs q); apply D).
    destruct x as [[v|k|k] [p| |[]|[p|]]]; cbn in Hc; try contradiction; try (apply Hsame; apply Hc).
    - destruct Hc as (Hn & _ & Hch). intros a b v1 w1 Ha Hb Hk. rewrite (Hch a) in Ha. rewrite (Hch b) in Hb.
      destruct (decide (a = p)) as [-> |Na], (decide (b = p)) as [-> |Nb]; [reflexivity| | |eapply D; eassumption].
      + injection Ha as <-. exfalso. apply Hn. exists b, w1. auto.
      + injection Hb as <-. exfalso. apply Hn. exists a, v1. auto.
    - destruct Hc as (p & v & _ & _ & Hch). intros a b v1 w1 Ha Hb Hk. rewrite (Hch a) in Ha. rewrite (Hch b) in Hb. destruct (decide (a = p)); [discriminate|]. destruct (decide (b = p)); [discriminate|]. eapply D; eassumption.
  Qed.
  Lemma distinct_calls M h M' : distinct M -> set_calls kf keq M h M' -> distinct M'.
  Proof using HP.
    revert M. induction h as [|[i x] h IH]; intros M D; cbn [set_calls]; [intros Hs p q v w; rewrite (Hs p), (Hs q); apply D|]. intros (M1 & Hc & Hr). eapply IH; [|exact Hr]. eapply distinct_call; eassumption.
  Qed.

  Section run.
    Context (progs : list (list (cop K V))) (s0 : cshared V).
    Hypothesis H0 : srest kf hash bc E s0.
    Hypothesis Hsep : separate kf hash keq bc s0 progs.
    (** at some earlier state of the run, during call number [m] of thread [i], the result [r] of a lookup of [k] was right *)
    Definition right (past : list (cshared V * list (cthread K V))) (i m : nat) (k : K) (r : option nat) : Prop :=
      exists c1 t1, c1 ∈ past /\ c1.2 !! i = Some t1 /\ length (c_log t1) = m /\ c_pc t1 <> UIdle /\
        match r with Some p => exists v, entry c1.1 p v /\ keq (kf v) k = true | None => forall p v, entry c1.1 p v -> keq (kf v) k = false end.
    Lemma right_more past c i m k r : right past i m k r -> right (c :: past) i m k r.
    Proof. intros (c1 & t1 & H1 & H2). exists c1, t1. split; [right; exact H1|exact H2]. Qed.
    Definition seen past i t : Prop :=
      (forall m k r, c_log t !! m = Some (CFind k, RFound r) -> right past i m k r) /\
      (forall k rest j, c_prog t = CFind k :: rest -> c_pc t = FVal FUser j -> right past i (length (c_log t)) k (Some j)) /\
      (forall k rest j, c_prog t = CFind k :: rest -> c_pc t = FOff FUser j -> right past i (length (c_log t)) k None).
    Lemma seen_more past c i t : seen past i t -> seen (c :: past) i t.
    Proof. intros (A & B & C). split; [intros; apply right_more; eauto|]. split; intros; apply right_more; eauto. Qed.
    Lemma seen_visited past s ls : visited step (s0, c_start progs) past (s, ls) -> forall i t, ls !! i = Some t -> seen past i t.
    Proof using HP H0 Hsep.
      intros HV. remember (s, ls) as c eqn:Ec. revert s ls Ec. induction HV as [|past c c' HV IH Hst]; intros s ls Ec i t Hi.
      - injection Ec as <- <-. unfold c_start in Hi. rewrite list_lookup_fmap in Hi. destruct (progs !! i) as [prog|]; [|discriminate]. injection Hi as <-. cbn. split; [intros m k r Hm; discriminate|]. split; intros k rest j _ Hp; discriminate.
      - subst c'. inversion Hst as [s1 ls1 j t1 s2 t2 Hj Hs Ec1 Ec2]. subst. destruct (sinv_visited kf hash keq bc E HP progs s0 H0 Hsep past s1 ls1 HV) as (h & I & _). specialize (IH s1 ls1 eq_refl).
        destruct (decide (i = j)) as [-> |Hne]; [|rewrite list_lookup_insert_ne in Hi by congruence; apply seen_more, IH; exact Hi].
        rewrite list_lookup_insert in Hi by (eapply lookup_lt_Some; exact Hj). injection Hi as <-. destruct (IH j t1 Hj) as (A & B & C).
        assert (Hp : c_prog t1 <> []). { intros Ep. unfold estep, ustep in Hs. rewrite Ep in Hs. destruct (c_pc t1); discriminate. }
        destruct (c_prog t1) as [|op rest] eqn:Ep; [congruence|]. clear Hp.
        pose proof (bk_bucket hash keq bc E HP (op_key kf op)) as Hb.
        assert (U : key_used kf progs (op_key kf op)) by (eapply makes_key, (s_prg _ _ _ _ _ _ _ _ _ _ I _ _ _ Hj); rewrite Ep; left).
        pose proof (s_thr _ _ _ _ _ _ _ _ _ _ I _ _ Hj) as Htk. unfold tok in Htk. rewrite Ep in Htk.
        (* steps of lookups *)
        assert (Hdec : (exists k, op = CFind k) \/ ~ exists k, op = CFind k) by (destruct op as [v|k|k]; [right; intros [k' Hk']; discriminate|right; intros [k' Hk']; discriminate|left; eauto]).
        destruct Hdec as [[k ->]|Hnf].
        + cbn [op_key] in *. destruct (c_pc t1) as [| | |c0 j0|c0 j0|c0 j0|c0 j0|c0 j0|c0 j0|c0 j0 p|c0 j0 p| | | | | | |r|e|e q|e p|e p|e p|e p|e p|e r|p|p|p|p|p ok|p q|p q|p|p q|p q|p q o'|p q o'|p q|p q|p q|p q x|p q ok|q ok] eqn:Epc; try (destruct c0); cbn [USepProofs.pcok] in Htk; try contradiction;
            unfold estep in Hs; rewrite Epc in Hs; unfold ustep in Hs; rewrite Ep in Hs; cbn [op_key] in Hs; rewrite Hb, Epc in Hs; cbn iota in Hs.
          * injection Hs as <- <-. apply seen_more. split; [exact A|]. split; intros k' rest' j' _ Hpc; discriminate.
          * subst j0. destruct (c_occ s1 !! bkt k) as [o|] eqn:Eo; [|discriminate]. injection Hs as <- <-. split; [intros m k' r Hm; apply right_more; eauto|]. split; intros k' rest' j' Ep' Hpc; cbn [cgo c_prog] in Ep'; rewrite Ep in Ep'; injection Ep' as <- <-; cbn [cgo c_pc c_log] in *; destruct o; try discriminate; injection Hpc as <-.
            -- exists (s1, ls1), t1. split; [left|]. split; [exact Hj|]. split; [reflexivity|]. split; [rewrite Epc; discriminate|]. destruct (haskey_occ kf hash keq bc E progs s0 s1 ls1 h k I U Eo) as (v & Hv & Hk). exists v. split; [split; assumption|exact Hk].
            -- exists (s1, ls1), t1. split; [left|]. split; [exact Hj|]. split; [reflexivity|]. split; [rewrite Epc; discriminate|]. intros p v He. destruct (keq (kf v) k) eqn:Ek; [|reflexivity]. exfalso.
               apply (absent kf hash keq bc E progs s0 s1 ls1 h k I U Eo). exists p, v. split; [apply content_entry; exact He|exact Ek].
          * destruct Htk as [-> (v & Hv & Hk)]. rewrite Hv, Hk in Hs. injection Hs as <- <-. apply seen_more. split; [|split; intros k' rest' j' _ Hpc; discriminate].
            intros m k' r Hm. cbn [cfinish c_log] in Hm. apply lookup_app_Some in Hm as [Hm|[Hge Hm]]; [eauto|]. apply list_lookup_singleton_Some in Hm as [Hm Hr]. injection Hr as <- <-. replace m with (length (c_log t1)) by lia. eapply B; reflexivity.
          * subst j0. assert (Hoff : c_off s1 !! bkt k = Some 0) by (rewrite (s_off _ _ _ _ _ _ _ _ _ _ I); exact (off_zero kf hash keq bc E HP progs s0 Hsep _ U)). rewrite Hoff in Hs. injection Hs as <- <-. apply seen_more. split; [|split; intros k' rest' j' _ Hpc; discriminate].
            intros m k' r Hm. cbn [cfinish c_log] in Hm. apply lookup_app_Some in Hm as [Hm|[Hge Hm]]; [eauto|]. apply list_lookup_singleton_Some in Hm as [Hm Hr]. injection Hr as <- <-. replace m with (length (c_log t1)) by lia. eapply C; reflexivity.
        + (* inserts and erases: the log grows by no lookup *)
          destruct (step_all kf hash keq bc E HP progs s0 H0 Hsep s1 ls1 h j t1 I Hj ltac:(rewrite Ep; discriminate)) as (s' & t' & evl & Hs' & I'). rewrite Hs in Hs'. injection Hs' as <- <-.
          assert (Hform : (exists pc, t2 = cgo t1 pc) \/ exists r, t2 = cfinish t1 op r).
          { clear - Hs Ep. unfold estep in Hs. destruct (c_pc t1) eqn:Epc; rewrite ?Ep in Hs; unfold ustep, after_find, after_end, after_prev, again in Hs; rewrite ?Ep, ?Epc in Hs; repeat case_match; simplify_eq; eauto. }
          apply seen_more. destruct Hform as [(pc & ->)|(r & ->)].
          * split; [exact A|]. split; intros k rest' j' Ep'; cbn [cgo c_prog] in Ep'; rewrite Ep in Ep'; injection Ep' as -> _; destruct Hnf; eauto.
          * split; [|split; intros k' rest' j' _ Hpc; discriminate]. intros m k' r' Hm. cbn [cfinish c_log] in Hm. apply lookup_app_Some in Hm as [Hm|[Hge Hm]]; [eauto|]. apply list_lookup_singleton_Some in Hm as [Hm Hr]. injection Hr as -> _. destruct Hnf; eauto.
    Qed.
  End run.
End find.
