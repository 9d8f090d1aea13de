(** Concurrent inserts and lookups on the unordered containers: the statements of UConcProps.v. *)
From Verif Require Import Base Conc SlotModel SlotSpec SlotProofs VectorModel VectorProofs VectorConcProofs HashProofs UnorderedModel UnorderedSpec UnorderedProofs UConcModel UConcSpec UConcProofs UConcReach.

Local Arguments pushed_by : simpl never.
Local Arguments popped_by : simpl never.

Lemma sumZ_swap {A B} (f : A -> B -> Z) la lb : sumZ (fun a => sumZ (f a) lb) la = sumZ (fun b => sumZ (fun a => f a b) la) lb.
Proof.
  induction la as [|a la IH]; cbn [sumZ]; [symmetry; apply sumZ_zero; auto|]. rewrite IH. rewrite sumZ_add. reflexivity.
Qed.
Lemma sumZ_le {A} (f g : A -> Z) l : (forall a, a ∈ l -> f a <= g a) -> sumZ f l <= sumZ g l.
Proof. induction l as [|a l IH]; intros H; cbn [sumZ]; [lia|]. pose proof (H a ltac:(left)). assert (sumZ f l <= sumZ g l); [apply IH; intros b Hb; apply H; right; exact Hb|]. lia. Qed.
Lemma sumZ_one {A} (l : list A) : sumZ (fun _ => 1) l = Z.of_nat (length l).
Proof. induction l as [|a l IH]; cbn [sumZ length]; lia. Qed.
Lemma sumZ_seq_at n q : (q < n)%nat -> sumZ (fun p => at_ p q) (seq 0 n) = 1.
Proof.
  intros H. assert (Hin : q ∈ seq 0 n) by (apply elem_of_seq; lia). apply elem_of_list_lookup in Hin as [i Hi]. 
  assert (G : forall a m, sumZ (fun p => at_ p q) (seq a m) = if decide (a <= q < a + m)%nat then 1 else 0).
  { intros a m. revert a. induction m as [|m IH]; intros a; cbn [seq sumZ]; [rewrite decide_False by lia; reflexivity|]. rewrite IH. unfold at_. repeat case_decide; lia. }
  rewrite G. rewrite decide_True by lia. reflexivity.
Qed.

Section final.
  Context {K V : Type} (kf : V -> K) (hash : K -> Z) (keq : K -> K -> bool) (bc E : nat).
  Hypothesis keq_refl : forall a, keq a a = true.
  Hypothesis keq_sym : forall a b, keq a b = true -> keq b a = true.
  Hypothesis keq_trans : forall a b c, keq a b = true -> keq b c = true -> keq a c = true.
  Hypothesis Hhash : forall a b, keq a b = true -> hash a = hash b.
  Hypothesis Hbc : (0 < bc)%nat.
  Hypothesis HE : (0 < E)%nat.
  Hypothesis Hmax : Z.of_nat (bc + E) <= INT_MAX.
  Notation n := (bc + E)%nat.
  Notation bkt := (bkt hash bc).
  Implicit Types (s : cshared V) (t : cthread K V) (ls : list (cthread K V)) (G : list (option V * list (nat * V))) (F : list nat) (g : option V * list (nat * V)).
  Context (M0 : list V).
  Notation cinv := (cinv kf hash keq bc E M0).
  Notation step := (ustep kf hash keq bc E).
  Notation L0 := (replicate n false).
  Let ustep_inv' := ustep_inv kf hash keq bc E keq_refl keq_sym keq_trans Hhash Hbc HE Hmax M0.
  Let bucket_of_bkt' := bucket_of_bkt hash keq bc E keq_refl keq_sym keq_trans Hhash Hbc HE Hmax.
  Let cf_bucket' := cf_bucket kf hash keq bc E keq_refl keq_sym keq_trans Hhash Hbc HE Hmax M0.
  Let walk_occ' := walk_occ kf hash keq bc E keq_refl keq_sym keq_trans Hhash Hbc HE Hmax M0.
  Let walk_val' := walk_val kf hash keq bc E keq_refl keq_sym keq_trans Hhash Hbc HE Hmax M0.
  Let walk_off' := walk_off kf hash keq bc E keq_refl keq_sym keq_trans Hhash Hbc HE Hmax M0.
  Let walk_add' := walk_add kf hash keq bc E keq_refl keq_sym keq_trans Hhash Hbc HE Hmax M0.

  (** *** what a returning call reports *)
  Definition report s (op : cop K V) (r : cret) : Prop :=
    match op, r with
    | CFind k, RFound (Some p) => exists v, stored_at s p v /\ keq (kf v) k = true
    | CFind k, RFound None => True
    | CInsert v, RInserted p => True
    | CInsert v, RNotInserted => c_count s = Z.of_nat (length (c_occ s)) \/ clamp_size (Z.of_nat E) (q_c (c_ex s)) = 0 \/ exists p w, stored_at s p w /\ keq (kf w) (kf v) = true
    | _, _ => False
    end.
  (** the running insert has claimed an entry of the excess list *)
  Definition took t : Z :=
    match c_prog t with
    | CInsert _ :: _ =>
      match c_pc t with
      | IPop _ q => match q_pc q with QIdle | QCtl _ => 0 | _ => 1 end
      | IConL _ _ | IOffL _ _ | ICntL _ _ | ISetL _ _ | ILinkL _ _ | IUnlL _ (Some _) => 1
      | _ => 0
      end
    | _ => 0
    end.
  Lemma step_log s ls G F i t s' t' : cinv s ls G F -> ls !! i = Some t -> step i s t = Some (s', t') ->
    (c_log t' = c_log t /\ c_prog t' = c_prog t) \/ exists op r, c_log t' = c_log t ++ [(op, r)] /\ c_prog t = op :: c_prog t' /\ report s op r /\ c_pc t' = UIdle /\ (r = RNotInserted -> took t = 0).
  Proof using All.
    intros I Hi Hst. pose proof (ci_tl _ _ _ _ _ _ _ _ _ _ I t (elem_of_list_lookup_2 _ _ _ Hi)) as [[T1 T2] _].
    destruct (c_prog t) as [|op rest] eqn:Ep; [unfold ustep in Hst; rewrite Ep in Hst; discriminate|].
    destruct (bucket_of_bkt' (tkey kf op)) as [Eb Hb]. destruct (cf_bucket' s ls G F I _ Hb) as [g Hg]. specialize (T2 g Hg). unfold tkey in *.
    assert (HF : forall r, report s op r -> (r = RNotInserted -> took t = 0) -> (c_log (cfinish t op r) = c_log t /\ c_prog (cfinish t op r) = op :: rest) \/
       exists op0 r0, c_log (cfinish t op r) = c_log t ++ [(op0, r0)] /\ op :: rest = op0 :: c_prog (cfinish t op r) /\ report s op0 r0 /\ c_pc (cfinish t op r) = UIdle /\ (r0 = RNotInserted -> took t = 0)).
    { intros r Hr Hr2. right. exists op, r. cbn [cfinish c_log c_prog c_pc]. rewrite Ep. auto. }
    unfold ustep in Hst. rewrite Ep, Eb in Hst. destruct op as [v|k|k]; [|exfalso; apply (T1 (CErase k)); left|].
    - destruct (c_pc t) eqn:Epc; cbn [knows_ins] in T2; try contradiction.
      all: try solve [repeat case_match; try discriminate; injection Hst as <- <-; left; cbn [cgo c_log c_prog again]; auto].
      + injection Hst as <- <-. destruct (Z.eqb_spec (c_count s) (Z.of_nat (length (c_occ s)))) as [Hc|Hc]; [apply HF; [left; exact Hc|intros _; unfold took; rewrite Ep, Epc; reflexivity]|left; cbn [cgo c_log c_prog]; auto].
      + injection Hst as <- <-. destruct (Z.eqb_spec (clamp_size (Z.of_nat E) (q_c (c_ex s))) 0) as [Hc|Hc]; [apply HF; [right; left; exact Hc|intros _; unfold took; rewrite Ep, Epc; reflexivity]|left; cbn [cgo c_log c_prog]; auto].
      + destruct T2 as [Tc Tw]. destruct (walk_val' s ls G F _ g _ c i0 I Hg Tw) as (w & Hv & _ & Hs & _). rewrite Hv in Hst. injection Hst as <- <-. cbn [op_key] in *.
        destruct (keq (kf w) (kf v)) eqn:Ek; [|left; cbn [cgo c_log c_prog]; auto]. destruct c; cbn [ctxok] in Tc; try contradiction; cbn [after_find]; [|left; cbn [cgo c_log c_prog]; auto..].
        apply HF; [right; right; eauto|intros _; unfold took; rewrite Ep, Epc; reflexivity].
      + destruct T2 as [Tc Tw]. destruct (c_off s !! i0) as [o|]; [|discriminate]. injection Hst as <- <-.
        destruct (o =? 0); [|left; cbn [cgo c_log c_prog]; auto]. destruct c; cbn [ctxok] in Tc; try contradiction; cbn [after_find]; try (left; cbn [cgo c_log c_prog]; auto; fail).
        case_bool_decide; left; cbn [cgo c_log c_prog]; auto.
      + destruct (c_off s !! i0) as [o|]; [|discriminate]. injection Hst as <- <-. destruct (o =? 0); [destruct c|]; left; cbn [cgo c_log c_prog after_end]; auto.
      + destruct (c_locks s !! _); [|discriminate]. injection Hst as <- <-. destruct r as [q|]; [apply HF; [exact Logic.I|discriminate]|left; cbn [cgo c_log c_prog again]; auto].
      + destruct (c_locks s !! e); [|discriminate]. injection Hst as <- <-. destruct r as [q|]; [apply HF; [exact Logic.I|discriminate]|left; cbn [cgo c_log c_prog again]; auto].
    - destruct (c_pc t) eqn:Epc; cbn [knows_find] in T2; try contradiction; try (destruct c; try contradiction).
      all: try solve [repeat case_match; try discriminate; injection Hst as <- <-; left; cbn [cgo c_log c_prog again]; auto].
      + destruct (walk_val' s ls G F _ g _ FUser i0 I Hg T2) as (w & Hv & _ & Hs & _). rewrite Hv in Hst. injection Hst as <- <-. cbn [op_key after_find] in *.
        destruct (keq (kf w) k) eqn:Ek; [apply HF; [exists w; auto|discriminate]|left; cbn [cgo c_log c_prog]; auto].
      + destruct (c_off s !! i0) as [o|]; [|discriminate]. injection Hst as <- <-. cbn [after_find]. destruct (o =? 0); [apply HF; [exact Logic.I|discriminate]|left; cbn [cgo c_log c_prog]; auto].
  Qed.

  (** the calls that returned and those still to come make up the program *)
  Definition calls t : list (cop K V) := (c_log t).*1 ++ c_prog t.
  Lemma calls_step s ls G F i t s' t' : cinv s ls G F -> ls !! i = Some t -> step i s t = Some (s', t') -> calls t' = calls t.
  Proof using All.
    intros I Hi Hst. unfold calls. destruct (step_log s ls G F i t s' t' I Hi Hst) as [[-> ->]|(op & r & -> & -> & _)]; [reflexivity|].
    rewrite fmap_app, <- app_assoc. reflexivity.
  Qed.
  Lemma calls_reach s ls G F s' ls' : cinv s ls G F -> Conc.reach step (s, ls) (s', ls') -> calls <$> ls' = calls <$> ls.
  Proof using All.
    intros I R. remember (s, ls) as c eqn:Ec. remember (s', ls') as c' eqn:Ec'. revert s ls G F s' ls' I Ec Ec'. induction R as [c|c c1 c2 Hs R IH]; intros; subst.
    - injection Ec' as <- <-. reflexivity.
    - inversion Hs as [s0 ls0 i t s1 t1 Hi Hst]; subst. destruct (ustep_inv' _ _ _ _ _ _ _ _ I Hi Hst) as (G1 & F1 & I1 & X1 & M1).
      rewrite (IH _ _ _ _ _ _ I1 eq_refl eq_refl). rewrite list_fmap_insert. apply list_insert_id. rewrite list_lookup_fmap, Hi. cbn [fmap option_fmap option_map]. f_equal. symmetry. exact (calls_step _ _ _ _ _ _ _ _ I Hi Hst).
  Qed.
  (** reports of lookups stay true *)
  Definition found_ok s ls : Prop := forall t k p, t ∈ ls -> (CFind k, RFound (Some p)) ∈ c_log t -> exists v, stored_at s p v /\ keq (kf v) k = true.
  Lemma found_reach s ls G F s' ls' : cinv s ls G F -> found_ok s ls -> Conc.reach step (s, ls) (s', ls') -> found_ok s' ls'.
  Proof using All.
    intros I Hf R. remember (s, ls) as c eqn:Ec. remember (s', ls') as c' eqn:Ec'. revert s ls G F s' ls' I Hf Ec Ec'. induction R as [c|c c1 c2 Hs R IH]; intros; subst.
    - injection Ec' as <- <-. exact Hf.
    - inversion Hs as [s0 ls0 i t s1 t1 Hi Hst]; subst. destruct (ustep_inv' _ _ _ _ _ _ _ _ I Hi Hst) as (G1 & F1 & I1 & X1 & M1).
      eapply (IH _ _ _ _ _ _ I1); [|reflexivity|reflexivity]. intros tj k p Hj Hp.
      assert (Hm : (exists v, stored_at s p v /\ keq (kf v) k = true) -> exists v, stored_at s1 p v /\ keq (kf v) k = true) by (intros (v & H1 & H2); exists v; auto).
      apply elem_of_list_lookup in Hj as [j Hj]. apply list_lookup_insert_Some in Hj as [(_ & <- & _)|[_ Hj]].
      + apply Hm. destruct (step_log s ls G F i t s1 t1 I Hi Hst) as [[El _]|(op & r & El & _ & Hr & _ & _)]; rewrite El in Hp.
        * eapply Hf; [eapply elem_of_list_lookup_2; exact Hi|exact Hp].
        * apply elem_of_app in Hp as [Hp|Hp]; [eapply Hf; [eapply elem_of_list_lookup_2; exact Hi|exact Hp]|]. apply elem_of_list_singleton in Hp. injection Hp as <- <-. exact Hr.
      + apply Hm. eapply Hf; [eapply elem_of_list_lookup_2; exact Hj|exact Hp].
  Qed.

  (** *** a lookup that starts after the key was stored *)
  Definition hunting (k : K) (rest : list (cop K V)) (log0 : list (cop K V * cret)) (p : nat) t : Prop :=
    (c_prog t = CFind k :: rest /\ c_log t = log0 /\ ((p < bc)%nat -> p = bkt k /\ (c_pc t = UIdle \/ c_pc t = FOcc FUser p \/ c_pc t = FVal FUser p))) \/
    exists more, c_log t = log0 ++ (CFind k, RFound (Some p)) :: more.
  Lemma hunting_step s ls G F i t s' t' k rest log0 p v : cinv s ls G F -> in_list G p v -> keq (kf v) k = true -> ls !! i = Some t -> step i s t = Some (s', t') ->
    hunting k rest log0 p t -> hunting k rest log0 p t'.
  Proof using All.
    intros I Hp Hk Hi Hst [(Ep & El & Hhd)|[more Hm]].
    2: { right. destruct (step_log s ls G F i t s' t' I Hi Hst) as [[-> _]|(op & r & -> & _)]; [eauto|]. rewrite Hm. exists (more ++ [(op, r)]). rewrite <- app_assoc. reflexivity. }
    pose proof (ci_tl _ _ _ _ _ _ _ _ _ _ I t (elem_of_list_lookup_2 _ _ _ Hi)) as [[T1 T2] _]. rewrite Ep in T2.
    destruct (bucket_of_bkt' k) as [Eb Hb]. destruct (cf_bucket' s ls G F I _ Hb) as [g Hg]. specialize (T2 g Hg). cbn [tkey op_key] in T2.
    unfold ustep in Hst. rewrite Ep in Hst. cbn [op_key] in Hst. rewrite Eb in Hst.
    assert (Hin : (p = bkt k /\ g.1 = Some v) \/ (p, v) ∈ g.2).
    { destruct Hp as (b & g' & Hg' & Hp). pose proof (ci_bkt _ _ _ _ _ _ _ _ _ _ I b g' v Hg' (in_list_val _ _ _ _ _ Hg' Hp)) as B.
      assert (E1 : bkt (kf v) = bkt k) by (unfold UnorderedProofs.bkt; rewrite (Hhash _ _ Hk); reflexivity). assert (b = bkt k) as -> by congruence. rewrite Hg in Hg'. injection Hg' as <-. exact Hp. }
    assert (Hbig : (p, v) ∈ g.2 -> (bc <= p)%nat).
    { intros H. assert (Hg2 : p ∈ gpos g) by (unfold gpos; apply elem_of_list_fmap; exists (p, v); auto).
      pose proof (cf_chain_range kf hash keq bc E keq_refl keq_sym keq_trans Hhash Hbc HE Hmax M0 s ls G F I _ g p Hg Hg2). lia. }
    assert (Hgo : forall pc, ((p < bc)%nat -> pc = UIdle \/ pc = FOcc FUser p \/ pc = FVal FUser p) -> hunting k rest log0 p (cgo t pc)).
    { intros pc H. left. cbn [cgo c_prog c_log c_pc]. split; [exact Ep|]. split; [exact El|]. intros Hl. split; [apply Hhd; exact Hl|auto]. }
    assert (Hst2 : stored_at s p v) by (eapply (in_list_stored kf hash keq bc E keq_refl keq_sym keq_trans Hhash Hbc HE Hmax M0 s ls G F); eauto).
    destruct (c_pc t) eqn:Epc; cbn [knows_find] in T2; try contradiction; try (destruct c; try contradiction).
    - injection Hst as <- <-. apply Hgo. intros Hl. right. left. destruct (Hhd Hl) as [<- _]. reflexivity.
    - destruct (walk_occ' s ls G F _ g _ FUser i0 I Hg ltac:(discriminate) T2) as (o & Ho & _). rewrite Ho in Hst. injection Hst as <- <-.
      apply Hgo. intros Hl. destruct (Hhd Hl) as [_ [?|[[= ->]|?]]]; try discriminate. destruct Hst2 as [_ Ho2]. assert (o = true) as -> by congruence. auto.
    - destruct (walk_val' s ls G F _ g _ FUser i0 I Hg T2) as (w & Hv & Hw & Hsw & _). rewrite Hv in Hst. injection Hst as <- <-. cbn [after_find].
      destruct (keq (kf w) k) eqn:Ek.
      + right. exists []. cbn [cfinish c_log]. rewrite El. assert (i0 = p) as ->; [|reflexivity].
        eapply (no_duplicates kf hash keq bc E keq_refl keq_sym keq_trans Hhash Hbc HE Hmax M0 s ls G F i0 p w v I); [exact Hsw|exact Hst2|]. eapply keq_trans; [exact Ek|]. apply keq_sym. exact Hk.
      + apply Hgo. intros Hl. exfalso. destruct (Hhd Hl) as [_ [?|[?|[= ->]]]]; try discriminate. destruct Hst2 as [H2 _]. assert (w = v) as -> by congruence. congruence.
    - destruct (walk_off' s ls G F _ g _ FUser i0 I Hg T2) as (o & Ho & Hz & _). rewrite Ho in Hst. injection Hst as <- <-. destruct (Z.eqb_spec o 0) as [H0|H0].
      + exfalso. destruct (Hz H0) as [Hnm _]. destruct Hin as [[Hpb Hgv]|Hin].
        * destruct Hhd as [_ [?|[?|?]]]; [rewrite Hpb; exact Hb|discriminate..].
        * rewrite (Hnm v) in Hk; [discriminate|]. apply elem_of_list_fmap. exists (p, v). auto.
      + apply Hgo. intros Hl. exfalso. destruct (Hhd Hl) as [_ [?|[?|?]]]; discriminate.
    - destruct (walk_add' s ls G F _ g _ FUser i0 I Hg T2) as (o & j & Ho & Hj & _). rewrite Ho, Hj in Hst. injection Hst as <- <-.
      apply Hgo. intros Hl. exfalso. destruct (Hhd Hl) as [_ [?|[?|?]]]; discriminate.
  Qed.
  Lemma hunting_reach s ls G F s' ls' k rest log0 p v i t : cinv s ls G F -> in_list G p v -> keq (kf v) k = true -> Conc.reach step (s, ls) (s', ls') ->
    ls !! i = Some t -> hunting k rest log0 p t -> exists t', ls' !! i = Some t' /\ hunting k rest log0 p t'.
  Proof using All.
    intros I Hp Hk R. remember (s, ls) as c eqn:Ec. remember (s', ls') as c' eqn:Ec'. revert s ls G F t s' ls' I Hp Ec Ec'. induction R as [c|c c1 c2 Hs R IH]; intros * I Hp Ec Ec' Hi Hh; subst.
    - injection Ec' as <- <-. eauto.
    - inversion Hs as [s0 ls0 j tj s1 t1 Hj Hst]; subst. destruct (ustep_inv' _ _ _ _ _ _ _ _ I Hj Hst) as (G1 & F1 & I1 & X1 & M1).
      assert (Hp1 : in_list G1 p v) by (eapply gext_in; eauto). destruct (decide (j = i)) as [-> |Hne].
      + rewrite Hi in Hj. injection Hj as ->. eapply (IH _ _ _ _ t1 _ _ I1 Hp1 eq_refl eq_refl); [apply list_lookup_insert; eapply lookup_lt_Some; exact Hi|]. exact (hunting_step _ _ _ _ _ _ _ _ k rest log0 p v I Hp Hk Hi Hst Hh).
      + eapply (IH _ _ _ _ t _ _ I1 Hp1 eq_refl eq_refl); [rewrite list_lookup_insert_ne by exact Hne; exact Hi|exact Hh].
  Qed.
End final.
