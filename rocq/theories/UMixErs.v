(** The steps of an erase that runs next to one insert (C68). *)
From Verif Require Import Base Conc SlotModel SlotSpec SlotProofs VectorModel VectorProofs VectorConcProofs UnorderedModel UnorderedSpec UnorderedProofs UConcModel UConcProofs UEraseModel UEraseProofs UMixSpec UMixVec UMixShape UMixKnow UMixCore UMixIns.

Section ers.
  Context {K V : Type} (kf : V -> K) (hash : K -> Z) (keq : K -> K -> bool) (bc E : nat).
  Hypothesis HP : key_equality keq /\ hash_respects keq hash /\ sizes_ok bc E.
  Context (M0 : list V) (ii ie : nat).
  Notation n := (bc + E)%nat.
  Notation bkt := (bkt hash bc).
  Notation shape := (shape kf hash keq bc E).
  Notation ev := (nat * option ((cop K V * cret) * list V))%type.
  Notation lst := (lst (K:=K) M0).
  Notation since := (since (K:=K) M0).
  Notation kI := (kI kf hash keq bc E M0 ii).
  Notation kE := (kE kf hash keq bc M0 ie).
  Notation shrink := (shrink (K:=K) bc E M0 ii).
  Notation miss := (miss kf hash keq bc M0 ie).
  Notation hit := (hit kf hash keq bc).
  Notation core := (core kf hash keq bc E M0 ii ie).
  Notation ilk := (ilk kf hash bc).
  Notation "'S0' f" := (f kf hash keq bc E HP) (at level 10, f at level 9, only parsing).
  Notation sh_of C := (k_sh _ _ _ _ _ _ _ _ _ _ _ _ _ _ C).
  Implicit Types (s : cshared V) (G : list (option V * list (nat * V))) (F D L : list nat) (a b : qthread Z) (H : list ev) (I : option (V * upc)) (X : option (K * upc)) (t : cthread K V).

  Definition xpendr (k : K) (pc : upc) : list (cop K V * cret) :=
    match pc with XCntB _ | XDesB _ | XUnlB _ true | XReset _ _ | XCnt _ _ | XDes _ _ | XPush _ _ _ | XUnl1 _ _ true | XUnl2 _ true => [(CErase k, RErased true)] | _ => [] end.
  Definition enext s G F H I t (k : K) s' t' : Prop := exists G' F' H' d X', core s' G' F' H' I X' /\ hstep ie H H' d /\ (forall p, some_at s p -> some_at s' p) /\
    ((exists pc', t' = cgo t pc' /\ X' = Some (k, pc') /\ xpendr k pc' = xpendr k (c_pc t) ++ d) \/ (exists r, t' = cfinish t (CErase k) r /\ X' = None /\ xpendr k (c_pc t) ++ d = [(CErase k, r)])).

  Lemma core_X s G F H k pc I s' G' F' H' X' : core s G F H I (Some (k, pc)) ->
    shape s' G' F' (ihd I ++ xhd X') (ilk I ++ xlk X') (ipd I + xpd X') (ipr I) (xpr X') -> traced kf keq E M0 H' -> lst H' = G' ≫= gvals ->
    (match X' with Some (k, pc) => kE s' G' H' k pc | None => True end) ->
    (forall v pi, I = Some (v, pi) -> ii <> ie -> shrink (lock_at (bkt (kf v)) pi) (ihand pi) (bkt (kf v)) s G H s' G' H') -> core s' G' F' H' I X'.
  Proof.
    intros C J T E1 HE HI. assert (Hone : ii = ie -> I = None) by (intros He; destruct (k_one _ _ _ _ _ _ _ _ _ _ _ _ _ _ C He) as [|]; [assumption|discriminate]).
    split; auto. destruct I as [[v pi]|]; [|exact Logic.I]. eapply kI_shrink; [exact (k_I _ _ _ _ _ _ _ _ _ _ _ _ _ _ C)|]. apply HI; [reflexivity|]. intros He. specialize (Hone He). discriminate.
  Qed.
  Lemma X_same s G F H k I t s' pc' : core s G F H I (Some (k, c_pc t)) ->
    shape s' G F (ihd I ++ xhand pc') (ilk I ++ locks_of pc') (ipd I + xpend_at pc') (ipr I) (xproj_at pc') -> kE s' G H k pc' -> c_values s' = c_values s -> c_off s' = c_off s ->
    (forall x, x ∈ ihd I -> c_occ s' !! x = c_occ s !! x) -> (room s -> room s') -> xpendr k pc' = xpendr k (c_pc t) -> enext s G F H I t k s' (cgo t pc').
  Proof.
    intros C J HE Hv Ho Hoc Hr Hp. exists G, F, H, [], (Some (k, pc')). split; [|split; [left; auto|]; split; [unfold some_at; rewrite Hv; auto|]; left; exists pc'; rewrite app_nil_r; auto].
    apply (core_X s G F H k (c_pc t) I); auto; try solve [apply C]. intros v pi -> _. apply shrink_same; auto.
  Qed.
  Lemma X_go s G F H k I t pc' : core s G F H I (Some (k, c_pc t)) -> kE s G H k pc' -> xhand pc' = xhand (c_pc t) -> locks_of pc' = locks_of (c_pc t) -> xpend_at pc' = xpend_at (c_pc t) -> xproj_at pc' = xproj_at (c_pc t) ->
    xpendr k pc' = xpendr k (c_pc t) -> enext s G F H I t k s (cgo t pc').
  Proof.
    intros C HE H1 H2 H3 H4 H5. apply X_same; auto. pose proof (sh_of C) as J. cbn [xhd xlk xpd xpr] in J. rewrite H1, H2, H3, H4. exact J.
  Qed.
  Lemma X_lock s G F H k I t e pc' : core s G F H I (Some (k, c_pc t)) -> (e < n)%nat -> lk (c_locks s) e = false -> xhand pc' = xhand (c_pc t) -> locks_of pc' ≡ₚ e :: locks_of (c_pc t) -> xpend_at pc' = xpend_at (c_pc t) -> xproj_at pc' = xproj_at (c_pc t) ->
    xpendr k pc' = xpendr k (c_pc t) -> kE (put_lock s e true) G H k pc' -> enext s G F H I t k (put_lock s e true) (cgo t pc').
  Proof using HP.
    intros C He Hl H1 H2 H3 H4 H5 H6. apply X_same; auto. pose proof (sh_of C) as J. cbn [xhd xlk xpd xpr] in J. rewrite H1, H3, H4.
    eapply sh_re; [eapply (S0 sh_lock_on); [exact J|exact He|]|reflexivity| |reflexivity].
    - intros Hin. apply (sh_lock _ _ _ _ _ _ _ _ _ _ _ _ _ J) in Hin. congruence.
    - rewrite H2. rewrite <- Permutation_middle. reflexivity.
  Qed.
  Lemma X_unlock s G F H k I t e X' r : core s G F H I (Some (k, c_pc t)) -> xhand (c_pc t) = [] -> xpend_at (c_pc t) = 0 -> xproj_at (c_pc t) = fresh_call [] -> locks_of (c_pc t) ≡ₚ e :: xlk X' ->
    (match X' with None => xpendr k (c_pc t) = [(CErase k, r)] | Some (k', pc) => k' = k /\ kE (put_lock s e false) G H k pc /\ xhand pc = [] /\ xpend_at pc = 0 /\ xproj_at pc = fresh_call [] /\ xpendr k pc = xpendr k (c_pc t) end) ->
    enext s G F H I t k (put_lock s e false) (match X' with None => cfinish t (CErase k) r | Some (_, pc) => cgo t pc end).
  Proof using HP.
    intros C H1 H2 H3 HL HX. pose proof (sh_of C) as J. cbn [xhd xlk xpd xpr] in J. rewrite H1, H2, H3 in J.
    assert (J' : shape (put_lock s e false) G F (ihd I ++ []) (ilk I ++ xlk X') (ipd I + 0) (ipr I) (fresh_call [])) by (eapply (S0 sh_lock_off); [exact J|rewrite HL; symmetry; apply Permutation_middle]).
    exists G, F, H, [], X'. split.
    - apply (core_X s G F H k (c_pc t) I); auto; try solve [apply C].
      + destruct X' as [[k' pc]|]; cbn; [|exact J']. destruct HX as (-> & _ & -> & -> & -> & _). exact J'.
      + destruct X' as [[k' pc]|]; [|exact Logic.I]. destruct HX as (-> & HX & _). exact HX.
      + intros v pi -> _. apply shrink_same; auto.
    - split; [left; auto|]. split; [auto|]. rewrite app_nil_r. destruct X' as [[k' pc]|]; [left|right; eauto]. destruct HX as (-> & _ & _ & _ & _ & HX). eauto.
  Qed.
  Lemma sh_locks s G F D L L' m a b : shape s G F D L m a b -> L' ≡ₚ L -> shape s G F D L' m a b.
  Proof. intros J HL. eapply sh_re; [exact J|reflexivity|exact HL|reflexivity]. Qed.
  (** nothing is erased *)
  Lemma X_refuse s G F H k I t : core s G F H I (Some (k, c_pc t)) -> xhand (c_pc t) = [] -> locks_of (c_pc t) = [] -> xpend_at (c_pc t) = 0 -> xproj_at (c_pc t) = fresh_call [] -> xpendr k (c_pc t) = [] ->
    since ie H (fun M => ~ holds kf keq M k) -> enext s G F H I t k s (cfinish t (CErase k) (RErased false)).
  Proof using HP.
    intros C H1 H2 H3 H4 H5 (A & B & EH & Ho & HQ). set (x := (CErase k, RErased false) : cop K V * cret). exists G, F, (A ++ (ie, Some (x, lst A)) :: B), [x], None. pose proof (sh_of C) as J. cbn [xhd xlk xpd xpr] in J. rewrite H1, H2, H3, H4 in J.
    split; [|split; [right; exists A, B, x, (lst A); auto|]; split; [auto|]; right; exists (RErased false); rewrite H5; auto].
    apply (core_X s G F H k (c_pc t) I); auto; try solve [apply C].
    - apply (S0 traced_put); [rewrite <- EH; apply C|]. split; [exact HQ|reflexivity].
    - rewrite lst_put, <- EH. apply C.
    - intros v pi _ Hne. apply shrink_same; auto. intros Q' HQ'. rewrite EH in HQ'. apply since_put; [congruence|exact HQ'].
  Qed.
  (** the erase takes effect *)
  Lemma X_commit s G F H k w I t s' G' pc' : core s G F H I (Some (k, c_pc t)) ->
    shape s' G' F (ihd I ++ xhand pc') (ilk I ++ locks_of pc') (ipd I + xpend_at pc') (ipr I) (xproj_at pc') ->
    keq (kf w) k = true -> G ≫= gvals ≡ₚ w :: (G' ≫= gvals) -> (forall H', kE s' G' H' k pc') -> (forall p, some_at s p -> some_at s' p) -> xpendr k (c_pc t) = [] -> xpendr k pc' = [(CErase k, RErased true)] ->
    (forall v pi H', I = Some (v, pi) -> (forall Q, since ii H Q -> since ii H' Q) -> since ii H' (fun M => w ∈ M) -> shrink (lock_at (bkt (kf v)) pi) (ihand pi) (bkt (kf v)) s G H s' G' H') -> enext s G F H I t k s' (cgo t pc').
  Proof using HP.
    intros C J Hk Hg HE Hv Hp Hp' HI. set (x := (CErase k, RErased true) : cop K V * cret). exists G', F, (H ++ [(ie, Some (x, G' ≫= gvals))]), [x], (Some (k, pc')).
    split; [|split; [right; exists H, [], x, (G' ≫= gvals); rewrite app_nil_r; auto|]; split; [exact Hv|]; left; exists pc'; rewrite Hp, Hp'; auto].
    apply (core_X s G F H k (c_pc t) I); [exact C|exact J| |apply lst_snoc|apply HE|].
    - apply (S0 traced_snoc); [apply C|]. rewrite (k_lst _ _ _ _ _ _ _ _ _ _ _ _ _ _ C). exists w. auto.
    - intros v pi EI Hne. apply (HI v pi); [exact EI| |].
      + intros Q HQ. apply since_ext; [congruence|exact HQ].
      + apply since_ext; [congruence|]. apply since_now. rewrite (k_lst _ _ _ _ _ _ _ _ _ _ _ _ _ _ C), Hg. left.
  Qed.

  (** *** walking *)
  Lemma at_linked s G F D L m a b c pre i suf : shape s G F D L m a b -> (c < bc)%nat -> lst_of G c = pre ++ i :: suf -> linked (c_off s) i suf /\ (i < n)%nat.
  Proof using HP.
    intros J Hc E1. split; [|apply (S0 sf_node _ _ _ _ _ _ _ _ J c i Hc); rewrite E1; apply elem_of_app; right; left].
    pose proof (sh_link _ _ _ _ _ _ _ _ _ _ _ _ _ J c Hc) as HL. unfold lst_of in E1. destruct pre as [|z pre]; cbn in E1; injection E1 as E0 E1; [subst; exact HL|]. rewrite E1 in HL.
    pose proof (linked_split (c_off s) c (pre ++ [i]) suf) as HS. rewrite <- app_assoc in HS. specialize (HS HL). rewrite lend_snoc in HS. exact HS.
  Qed.
  Lemma at_end s G F D L m a b c pre i suf o : shape s G F D L m a b -> (c < bc)%nat -> lst_of G c = pre ++ i :: suf -> c_off s !! i = Some o -> (o = 0 /\ suf = []) \/ (o <> 0 /\ exists j suf', suf = j :: suf' /\ next_entry i o = Some j /\ lst_of G c = (pre ++ [i]) ++ j :: suf').
  Proof using HP.
    intros J Hc E1 Ho. destruct (at_linked _ _ _ _ _ _ _ _ _ _ _ _ J Hc E1) as [HL _]. destruct suf as [|j suf]; cbn [linked] in HL; [rewrite HL in Ho; injection Ho as <-; auto|]. destruct HL as (N1 & N2 & N3). rewrite N2 in Ho. injection Ho as <-. right. split; [lia|].
    exists j, suf. split; [reflexivity|]. split; [apply next_nat; lia|]. rewrite E1, <- app_assoc. reflexivity.
  Qed.
  Lemma miss_start s G F H I X k : core s G F H I X -> miss G H k (lst_of G (bkt k)).
  Proof using HP.
    intros C. destruct (existsb (fun xw => keq (kf xw.2) k) (ents G (bkt k))) eqn:Ee.
    - right. apply existsb_exists in Ee as ([x w] & Hx & Hk). apply elem_of_list_In in Hx. exists x, w. split; [eapply ents_pos; exact Hx|]. auto.
    - left. apply since_now. rewrite (k_lst _ _ _ _ _ _ _ _ _ _ _ _ _ _ C). rewrite (S0 sf_holds _ _ _ _ _ _ _ _ (sh_of C)). intros (x & w & Hx & Hk).
      assert (existsb (fun xw => keq (kf xw.2) k) (ents G (bkt k)) = true); [|congruence]. apply existsb_exists. exists (x, w). split; [apply elem_of_list_In; exact Hx|exact Hk].
  Qed.
  Lemma miss_skip G H k i suf : miss G H k (i :: suf) -> (forall w, (i, w) ∈ ents G (bkt k) -> keq (kf w) k = false) -> miss G H k suf.
  Proof.
    intros [Hm|(x & w & Hx & Hw & Hk)] Hi; [left; exact Hm|]. apply elem_of_cons in Hx as [-> |Hx]; [rewrite (Hi w Hw) in Hk; discriminate|]. right. eauto.
  Qed.
  Lemma at_start G c (P : list nat -> Prop) : P (gpos (gb G c)) -> at_ G c c P.
  Proof. intros HP'. exists [], (gpos (gb G c)). auto. Qed.
  Lemma start_kE s G F H I X k : core s G F H I X -> forall s', kE s' G H k (FOcc FEr1 (bkt k)).
  Proof using HP. intros C s'. cbn [UMixKnow.kE xctx]. split; [exact Logic.I|]. apply at_start. intros _. eapply miss_start. exact C. Qed.
  Lemma behind_of s G F D L m a b c pre q p suf w : shape s G F D L m a b -> (c < bc)%nat -> lst_of G c = pre ++ q :: p :: suf -> (p, w) ∈ ents G c -> exists es1 es2, behind G c q p w es1 es2.
  Proof using HP.
    intros J Hc E1 Hw. pose proof (S0 sf_chain_nodup _ _ _ _ _ _ _ _ J c Hc) as ND.
    assert (Hpc : p <> c). { intros ->. rewrite E1 in ND. unfold lst_of in E1. destruct pre as [|z pre]; cbn in E1; injection E1 as <- E1; cbn in ND; apply NoDup_cons in ND as [ND _]; apply ND; [left|apply elem_of_app; right; right; left]. }
    assert (Hw2 : (p, w) ∈ (gb G c).2). { unfold ents, ents_of in Hw. apply elem_of_app in Hw as [Hw|Hw]; [|exact Hw]. destruct (gb G c).1; [apply elem_of_list_singleton in Hw; congruence|inversion Hw]. }
    apply elem_of_list_split in Hw2 as (es1 & es2 & Eg). exists es1, es2. split; [exact Eg|]. unfold lst_of, gpos in *. rewrite Eg, fmap_app in *. cbn [fmap list_fmap fst] in *. rewrite app_comm_cons in E1.
    assert (Hsame : forall (l1 l2 r1 r2 : list nat), l1 ++ p :: r1 = l2 ++ p :: r2 -> p ∉ l1 -> p ∉ l2 -> l1 = l2).
    { clear. induction l1 as [|x l1 IH]; intros [|y l2] r1 r2 HE H1 H2; cbn in HE; [reflexivity|injection HE as -> _; exfalso; apply H2; left|injection HE as -> _; exfalso; apply H1; left|]. injection HE as -> HE. f_equal. eapply IH; eauto; intros Hx; [apply H1|apply H2]; right; exact Hx. }
    replace (pre ++ q :: p :: suf) with ((pre ++ [q]) ++ p :: suf) in E1 by (rewrite <- app_assoc; reflexivity).
    assert (N1 : p ∉ c :: es1.*1). { rewrite app_comm_cons in ND. apply NoDup_app in ND as (_ & ND & _). intros Hx. apply (ND p Hx). left. }
    assert (N2 : p ∉ pre ++ [q]). { rewrite app_comm_cons in ND. change (c :: es1.*1) with ([c] ++ es1.*1) in *. cbn [app] in *. rewrite E1 in ND. apply NoDup_app in ND as (_ & ND & _). intros Hx. apply (ND p Hx). left. }
    pose proof (Hsame _ _ _ _ E1 N1 N2) as Ee. assert (Hl : last (c :: es1.*1) = Some q) by (rewrite Ee, last_snoc; reflexivity). rewrite last_cons in Hl. unfold lend. destruct (last es1.*1); cbn; congruence.
  Qed.

  Local Ltac go Epc := rewrite ?Epc; reflexivity.
  Lemma hand_occ_x s G F H I X p (o : bool) : core s G F H I X -> p ∈ xhd X -> forall x, x ∈ ihd I -> c_occ (put_occ s p o) !! x = c_occ s !! x.
  Proof using HP.
    intros C Hp x Hx. cbn [put_occ c_occ]. apply list_lookup_insert_ne. intros <-. pose proof (S0 sf_nodup _ _ _ _ _ _ _ _ (sh_of C)) as ND.
    apply NoDup_app in ND as (_ & _ & ND). apply NoDup_app in ND as (ND & _ & _). apply NoDup_app in ND as (_ & ND & _). exact (ND p Hx Hp).
  Qed.
  Lemma base_lt s G F D L m a b c p q : shape s G F D L m a b -> (c < bc)%nat -> base G c p q -> (p < n)%nat /\ (q < n)%nat.
  Proof using HP. intros J Hc (B1 & B2 & B3). split; eapply (S0 sf_node); eauto. Qed.
  Lemma ready_at s G F D L m a b k p q : shape s G F D L m a b -> ready kf hash keq bc G k p q -> exists po qo, c_off s !! p = Some po /\ c_off s !! q = Some qo.
  Proof using HP.
    intros J (w & es1 & es2 & HB & _). assert (Hc : (bkt k < bc)%nat) by apply (mx_bkt hash keq bc E HP). destruct (lst_behind kf _ _ _ _ _ _ _ HB) as (L1 & E1 & _).
    destruct (S0 sf_off_at _ _ _ _ _ _ _ _ J p) as [po Hpo]; [apply (S0 sf_node _ _ _ _ _ _ _ _ J _ p Hc); rewrite E1; apply elem_of_app; right; right; left|].
    destruct (S0 sf_off_at _ _ _ _ _ _ _ _ J q) as [qo Hqo]; [apply (S0 sf_node _ _ _ _ _ _ _ _ J _ q Hc); rewrite E1; apply elem_of_app; right; left|]. eauto.
  Qed.

  Lemma erase_step tid s G F H I t k rest : core s G F H I (Some (k, c_pc t)) -> c_prog t = CErase k :: rest -> exists s' t', estep kf hash keq bc E tid s t = Some (s', t') /\ enext s G F H I t k s' t'.
  Proof using HP.
    intros C Hprog. pose proof (sh_of C) as J. pose proof (k_E _ _ _ _ _ _ _ _ _ _ _ _ _ _ C) as HE. cbn beta iota in HE. cbn [xhd xlk xpd xpr] in J.
    assert (Hb : bucket_of hash bc k = Some (bkt k)) by apply (mx_bucket hash keq bc E HP). assert (Hc : (bkt k < bc)%nat) by apply (mx_bkt hash keq bc E HP).
    assert (Hlst := k_lst _ _ _ _ _ _ _ _ _ _ _ _ _ _ C). pose proof (start_kE _ _ _ _ _ _ k C) as Hst0.
    assert (Hex : exists pc, c_pc t = pc) by eauto. destruct Hex as [pc Epc]. unfold estep, ustep. rewrite Hprog, Epc. cbn [op_key]. rewrite Hb. rewrite Epc in HE, J.
    destruct pc as [| | |x i|x i|x i|x i|x i|x i|x i pr|x i pr| | | | | | |r|e|e q|e p|e p|e p|e p|e p|e r|p|p|p|p|p ok|p q|p q|p|p q|p q|p q o|p q o|p q|p q|p q|p q x|p q ok|q ok];
      cbn [UMixKnow.kE] in HE; try contradiction; cbn [xhand locks_of xpend_at xproj_at] in J.
    - (* FOcc *) destruct HE as (Cx & pre & suf & E1 & Hm). destruct (at_linked _ _ _ _ _ _ _ _ _ _ _ _ J Hc E1) as [_ Hi]. destruct (S0 sf_occ_at _ _ _ _ _ _ _ _ J i Hi) as [o Ho]. rewrite Ho. eexists _, _. split; [reflexivity|].
      assert (Hil : i ∈ lst_of G (bkt k)) by (rewrite E1; apply elem_of_app; right; left).
      destruct o; (apply X_go; [exact C| |go Epc..]); cbn [UMixKnow.kE]; (split; [exact Cx|]).
      + split; [exact (S0 node_occ _ _ _ _ _ _ _ _ _ _ J Hc Hil Ho)|]. exists pre, suf. auto.
      + exists pre, suf. split; [exact E1|]. intros Hx. apply (miss_skip _ _ _ i); [auto|]. intros w Hw. destruct (sh_ent _ _ _ _ _ _ _ _ _ _ _ _ _ J _ i w Hc Hw) as [_ Hw']. congruence.
    - (* FVal *) destruct HE as (Cx & (w & Hw) & pre & suf & E1 & Hm). destruct (sh_ent _ _ _ _ _ _ _ _ _ _ _ _ _ J _ i w Hc Hw) as [Hwv _]. rewrite Hwv. eexists _, _. split; [reflexivity|].
      assert (Hil : i ∈ lst_of G (bkt k)) by (rewrite E1; apply elem_of_app; right; left).
      destruct (keq (kf w) k) eqn:Ek; [|apply X_go; [exact C| |go Epc..]; cbn [UMixKnow.kE]; (split; [exact Cx|]); exists pre, suf; split; [exact E1|]; intros Hx; apply (miss_skip _ _ _ i); [auto|]; intros w' Hw'; rewrite (S0 sf_ents_fun _ _ _ _ _ _ _ _ J _ _ _ _ _ Hc Hc Hw' Hw); exact Ek].
      destruct x as [| | |e chk| |p|p q]; try contradiction; cbn [after_find].
      + case_bool_decide as Hib.
        * apply X_go; [exact C|exact Hib|go Epc..].
        * apply X_go; [exact C| |go Epc..]. cbn [UMixKnow.kE]. split; [reflexivity|]. apply at_start. split; auto.
      + cbn [xctx] in Cx. case_bool_decide as Hib; [|apply X_go; [exact C|exact Logic.I|go Epc..]]. injection Hib as ->. apply X_go; [exact C| |go Epc..]. cbn [UMixKnow.kE]. split; [exact Cx|]. exists w. auto.
      + apply X_go; [exact C| |go Epc..]. cbn [UMixKnow.kE]. split; [reflexivity|]. apply at_start. cbn [pknow]. split; [exact Cx|]. intros Hs. apply bool_decide_eq_true in Hs. injection Hs as ->. split; [exists w; auto|]. destruct Cx as (B1 & B2 & _). apply elem_of_cons in B1 as [?|?]; [contradiction|assumption].
    - (* FOff *) destruct HE as (Cx & pre & suf & E1 & Hm). destruct (at_linked _ _ _ _ _ _ _ _ _ _ _ _ J Hc E1) as [_ Hi]. destruct (S0 sf_off_at _ _ _ _ _ _ _ _ J i Hi) as [o Ho]. rewrite Ho. eexists _, _. split; [reflexivity|].
      destruct (at_end _ _ _ _ _ _ _ _ _ _ _ _ _ J Hc E1 Ho) as [[-> ->]|(Hne & j & suf' & -> & _)].
      + rewrite Z.eqb_refl. destruct x as [| | |e chk| |p|p q]; try contradiction; cbn [after_find].
        * apply X_refuse; [exact C|go Epc..|]. destruct (Hm eq_refl) as [Hm'|(x & w & Hx & _)]; [exact Hm'|inversion Hx].
        * rewrite bool_decide_eq_false_2 by discriminate. apply X_go; [exact C|exact Logic.I|go Epc..].
        * rewrite bool_decide_eq_false_2 by discriminate. apply X_go; [exact C| |go Epc..]. cbn [UMixKnow.kE]. split; [reflexivity|]. apply at_start. cbn [pknow]. split; [exact Cx|discriminate].
      + rewrite (proj2 (Z.eqb_neq _ _)) by exact Hne. apply X_go; [exact C| |go Epc..]. cbn [UMixKnow.kE]. split; [exact Cx|]. exists pre, (j :: suf'). split; [exact E1|]. split; [discriminate|exact Hm].
    - (* FAdd *) destruct HE as (Cx & pre & suf & E1 & Hne & Hm). destruct (at_linked _ _ _ _ _ _ _ _ _ _ _ _ J Hc E1) as [_ Hi]. destruct (S0 sf_off_at _ _ _ _ _ _ _ _ J i Hi) as [o Ho]. rewrite Ho.
      destruct (at_end _ _ _ _ _ _ _ _ _ _ _ _ _ J Hc E1 Ho) as [[_ ->]|(_ & j & suf' & -> & Hj & E2)]; [contradiction|]. rewrite Hj. eexists _, _. split; [reflexivity|]. apply X_go; [exact C| |go Epc..]. cbn [UMixKnow.kE]. split; [exact Cx|]. exists (pre ++ [i]), suf'. auto.
    - (* POff *) destruct HE as (-> & pre & suf & E1 & Hk). destruct (at_linked _ _ _ _ _ _ _ _ _ _ _ _ J Hc E1) as [_ Hi]. destruct (S0 sf_off_at _ _ _ _ _ _ _ _ J i Hi) as [o Ho]. rewrite Ho. eexists _, _. split; [reflexivity|].
      assert (Hil : i ∈ lst_of G (bkt k)) by (rewrite E1; apply elem_of_app; right; left).
      destruct (at_end _ _ _ _ _ _ _ _ _ _ _ _ _ J Hc E1 Ho) as [[-> ->]|(Hne & j & suf' & -> & _)].
      + rewrite Z.eqb_refl. destruct x as [p|p q same]; cbn [after_prev pknow] in *.
        * apply X_go; [exact C| |go Epc..]. cbn [UMixKnow.kE]. destruct Hk. split; auto.
        * assert (same = false) as ->. { destruct same; [|reflexivity]. destruct Hk as [_ Hk]. destruct (Hk eq_refl) as [_ Hx]. inversion Hx. } cbn [andb]. apply X_go; [exact C|exact Logic.I|go Epc..].
      + rewrite (proj2 (Z.eqb_neq _ _)) by exact Hne. apply X_go; [exact C| |go Epc..]. cbn [UMixKnow.kE]. split; [reflexivity|]. exists pre, (j :: suf'). split; [exact E1|]. split; [discriminate|exact Hk].
    - (* PAdd *) destruct HE as (-> & pre & suf & E1 & Hne & Hk). destruct (at_linked _ _ _ _ _ _ _ _ _ _ _ _ J Hc E1) as [_ Hi]. destruct (S0 sf_off_at _ _ _ _ _ _ _ _ J i Hi) as [o Ho]. rewrite Ho.
      assert (Hil : i ∈ lst_of G (bkt k)) by (rewrite E1; apply elem_of_app; right; left).
      destruct (at_end _ _ _ _ _ _ _ _ _ _ _ _ _ J Hc E1 Ho) as [[_ ->]|(_ & j & suf' & -> & Hj & E2)]; [contradiction|]. rewrite Hj. eexists _, _. split; [reflexivity|]. case_bool_decide as Hje.
      + destruct x as [p|p q same]; cbn [after_prev pknow entry_of] in *.
        * apply X_go; [exact C| |go Epc..]. cbn [UMixKnow.kE]. destruct Hk. split; auto.
        * subst j. destruct Hk as [Hbase Hs]. destruct (same && bool_decide (q = i)) eqn:Eq.
          -- apply andb_true_iff in Eq as [-> Eq]. apply bool_decide_eq_true in Eq as ->. destruct (Hs eq_refl) as [(w & Hw & Hkw) _]. destruct (behind_of _ _ _ _ _ _ _ _ _ _ _ _ _ _ J Hc E1 Hw) as (es1 & es2 & HB). apply X_go; [exact C| |go Epc..]. cbn [UMixKnow.kE]. exists w, es1, es2. auto.
          -- apply X_go; [exact C|exact Logic.I|go Epc..].
      + apply X_go; [exact C| |go Epc..]. cbn [UMixKnow.kE]. split; [reflexivity|]. exists (pre ++ [i]), suf'. split; [exact E2|]. destruct x as [p|p q same]; cbn [pknow entry_of] in *; [exact Hk|]. destruct Hk as [Hbase Hs]. split; [exact Hbase|]. intros Ht. destruct (Hs Ht) as [Hh Hin]. split; [exact Hh|]. apply elem_of_cons in Hin as [?|?]; [congruence|assumption].
    - (* XLockB *) subst p. destruct (S0 sf_lock_at _ _ _ _ _ _ _ _ J (bkt k) ltac:(lia)) as (o & Ho & _). rewrite Ho. destruct o; eexists _, _; (split; [reflexivity|]); cbn [again].
      + apply X_go; [exact C|apply Hst0|go Epc..].
      + apply X_lock; [exact C|lia|unfold lk; rewrite Ho; reflexivity|go Epc..|]. cbn [UMixKnow.kE]. split; [reflexivity|]. apply at_start. discriminate.
    - (* XResetB *) destruct HE as [-> (w & Hw & Hk)]. destruct (sh_ent _ _ _ _ _ _ _ _ _ _ _ _ _ J _ _ w Hc Hw) as [Hwv Hwo]. rewrite Hwo. eexists _, _. split; [reflexivity|].
      assert (Hhd : (gb G (bkt k)).1 = Some w).
      { unfold ents, ents_of in Hw. apply elem_of_app in Hw as [Hw|Hw]; [destruct (gb G (bkt k)).1; [apply elem_of_list_singleton in Hw; congruence|inversion Hw]|]. exfalso. assert (Hin : bkt k ∈ gpos (gb G (bkt k))) by (unfold gpos; apply elem_of_list_fmap; exists (bkt k, w); auto). pose proof (S0 sf_chain _ _ _ _ _ _ _ _ J _ _ Hc Hin). lia. }
      apply (X_commit _ _ _ _ _ w _ _ _ (<[bkt k := (None, (gb G (bkt k)).2)]> G)); [exact C| |exact Hk| |intros H'; exists w; exact Hwv|auto|go Epc|reflexivity|].
      + cbn [xhand locks_of xpend_at xproj_at]. eapply sh_re; [eapply (S0 sh_reset_head); [exact J|exact Hc|exact Hhd]|reflexivity|reflexivity|lia].
      + destruct (S0 vals_upd _ _ _ _ _ _ _ _ (bkt k) (None, (gb G (bkt k)).2) J Hc) as (rest' & E1 & E2). rewrite E2, E1. unfold gvals. rewrite Hhd. reflexivity.
      + intros v pi H' -> Hs _. eapply (S0 shrink_reset); [exact J|exact Hc| |exact Hs]. intros x Hx. apply elem_of_app. auto.
    - (* XCntB *) eexists _, _. split; [reflexivity|]. apply X_same; [exact C| |exact HE|auto..|go Epc]. cbn [xhand locks_of xpend_at xproj_at]. eapply sh_re; [eapply sh_cnt with (d := -1); exact J|reflexivity|reflexivity|lia].
    - (* XDesB *) destruct HE as [w Hw]. rewrite Hw. eexists _, _. split; [reflexivity|]. apply X_go; [exact C|exact Logic.I|go Epc..].
    - (* XUnlB *) assert (Hpl : (p < n)%nat) by (apply (S0 sf_lock_lt _ _ _ _ _ _ _ _ J); apply elem_of_app; right; left). destruct (S0 sf_lock_at _ _ _ _ _ _ _ _ J p Hpl) as (o & Ho & _). rewrite Ho. eexists _, _. split; [reflexivity|]. destruct ok; cbn [again].
      + apply (X_unlock _ _ _ _ _ _ _ _ None); [exact C|go Epc..].
      + apply (X_unlock _ _ _ _ _ _ _ _ (Some (k, FOcc FEr1 (bkt k))) (RErased false)); [exact C|go Epc..|]. split; [reflexivity|]. split; [apply Hst0|]. repeat split; go Epc.
    - (* XLock1 *) destruct (base_lt _ _ _ _ _ _ _ _ _ _ _ J Hc HE) as [Hp Hq]. destruct (S0 sf_lock_at _ _ _ _ _ _ _ _ J p Hp) as (o & Ho & _). rewrite Ho. destruct o; eexists _, _; (split; [reflexivity|]); cbn [again].
      + apply X_go; [exact C|apply Hst0|go Epc..].
      + apply X_lock; [exact C|exact Hp|unfold lk; rewrite Ho; reflexivity|go Epc..|exact HE].
    - (* XLock2 *) destruct (base_lt _ _ _ _ _ _ _ _ _ _ _ J Hc HE) as [Hp Hq]. destruct (S0 sf_lock_at _ _ _ _ _ _ _ _ J q Hq) as (o & Ho & _). rewrite Ho. destruct o; eexists _, _; (split; [reflexivity|]).
      + apply X_go; [exact C|exact Logic.I|go Epc..].
      + apply X_lock; [exact C|exact Hq|unfold lk; rewrite Ho; reflexivity|go Epc| |go Epc..|].
        * rewrite Epc. cbn. apply Permutation_swap.
        * cbn [UMixKnow.kE xctx]. split; [exact HE|]. apply at_start. discriminate.
    - (* XBack *) assert (Hpl : (p < n)%nat) by (apply (S0 sf_lock_lt _ _ _ _ _ _ _ _ J); apply elem_of_app; right; left). destruct (S0 sf_lock_at _ _ _ _ _ _ _ _ J p Hpl) as (o & Ho & _). rewrite Ho. eexists _, _. split; [reflexivity|]. cbn [again].
      apply (X_unlock _ _ _ _ _ _ _ _ (Some (k, FOcc FEr1 (bkt k))) (RErased false)); [exact C|go Epc..|]. split; [reflexivity|]. split; [apply Hst0|]. repeat split; go Epc.
    - (* XTest *) destruct (ready_at _ _ _ _ _ _ _ _ _ _ _ J HE) as (po & qo & Hpo & Hqo). rewrite Hpo. eexists _, _. split; [reflexivity|]. destruct (Z.eqb_spec po 0) as [-> |Hne].
      + apply X_go; [exact C| |go Epc..]. cbn [UMixKnow.kE]. split; [exact HE|]. exists 0, qo. auto.
      + apply X_go; [exact C| |go Epc..]. cbn [UMixKnow.kE]. split; [exact HE|]. congruence.
    - (* XAdd1 *) destruct HE as [HE Hn0]. destruct (ready_at _ _ _ _ _ _ _ _ _ _ _ J HE) as (po & qo & Hpo & Hqo). rewrite Hpo. eexists _, _. split; [reflexivity|]. apply X_go; [exact C| |go Epc..]. cbn [UMixKnow.kE]. split; [exact HE|]. split; [exact Hpo|congruence].
    - (* XAdd2 *) destruct HE as (HE & Hpo & Hn0). destruct (ready_at _ _ _ _ _ _ _ _ _ _ _ J HE) as (po & qo & Hpo' & Hqo). rewrite Hqo. eexists _, _. split; [reflexivity|]. apply X_go; [exact C| |go Epc..]. cbn [UMixKnow.kE]. split; [exact HE|]. exists o, qo. rewrite (proj2 (Z.eqb_neq _ _)) by exact Hn0. auto.
    - (* XPut *) destruct HE as ((w & es1 & es2 & HB & Hk) & po & qo & Hpo & Hqo & ->). rewrite Hqo. eexists _, _. split; [reflexivity|].
      assert (Hpe : (p, w) ∈ ents G (bkt k)) by (apply elem_of_app; right; destruct HB as [-> _]; apply elem_of_app; right; left). destruct (sh_ent _ _ _ _ _ _ _ _ _ _ _ _ _ J _ _ w Hc Hpe) as [Hwv _].
      apply (X_commit _ _ _ _ _ w _ _ _ (<[bkt k := ((gb G (bkt k)).1, es1 ++ es2)]> G)); [exact C| |exact Hk| |intros H'; exists w; exact Hwv|auto|go Epc|reflexivity|].
      + cbn [xhand locks_of xpend_at xproj_at]. eapply sh_re; [eapply (S0 sh_unlink); [exact J|exact Hc|exact HB|exact Hpo|exact Hqo]| |reflexivity|lia]. rewrite <- Permutation_middle. reflexivity.
      + destruct (S0 vals_upd _ _ _ _ _ _ _ _ (bkt k) ((gb G (bkt k)).1, es1 ++ es2) J Hc) as (rest' & E1 & E2). rewrite E2, E1. unfold gvals. destruct HB as [-> _]. cbn [fst snd]. rewrite !fmap_app. cbn [fmap list_fmap snd]. rewrite <- !Permutation_middle. reflexivity.
      + pose proof (sh_lnd _ _ _ _ _ _ _ _ _ _ _ _ _ J) as ND. apply NoDup_app in ND as (_ & ND & _).
        intros v pi H' -> Hs Hsw. assert (Hl : forall y, lock_at (bkt (kf v)) pi = Some y -> y ∉ [p; q]) by (intros y Hy; apply ND; cbn [UMixCore.ilk]; rewrite Hy; left).
        eapply (S0 shrink_unlink); [exact J|exact Hc|apply (mx_bkt hash keq bc E HP)|exact HB|exact Hpo|exact Hqo| | | |exact Hs|exact Hsw].
        * intros Hx. apply (Hl _ Hx). left.
        * intros Hx. apply (Hl _ Hx). right. left.
        * intros x Hx. apply elem_of_app. auto.
    - (* XReset *) assert (HpD : p ∈ ihd I ++ [p]) by (apply elem_of_app; right; left). destruct (S0 sf_d _ _ _ _ _ _ _ _ J p HpD) as [Hr Hn]. destruct (S0 sf_occ_at _ _ _ _ _ _ _ _ J p ltac:(lia)) as [o Ho]. rewrite Ho. eexists _, _. split; [reflexivity|].
      apply X_same; [exact C| | |auto|auto| |auto|go Epc].
      + cbn [xhand locks_of xpend_at xproj_at]. apply (S0 sh_put_occ); [exact J|exact HpD|discriminate].
      + cbn [UMixKnow.kE put_occ c_occ]. split; [exact HE|]. apply list_lookup_insert. apply lookup_lt_Some in Ho. exact Ho.
      + eapply hand_occ_x; [exact C|]. cbn [xhd]. rewrite Epc. left.
    - (* XCnt *) eexists _, _. split; [reflexivity|]. apply X_same; [exact C| |exact HE|auto..|go Epc]. cbn [xhand locks_of xpend_at xproj_at]. eapply sh_re; [eapply sh_cnt with (d := -1); exact J|reflexivity|reflexivity|lia].
    - (* XDes *) destruct HE as [[w Hw] Ho]. rewrite Hw. eexists _, _. split; [reflexivity|]. replace s with (put_ex s (c_ex s)) at 2 by (destruct s; reflexivity). apply X_same; [exact C| |cbn [UMixKnow.kE]; split; [exact Ho|split; reflexivity]|auto..|go Epc].
      cbn [xhand locks_of xpend_at xproj_at]. eapply sh_ex; [exact J|apply pair_enter_push; apply (sh_vec _ _ _ _ _ _ _ _ _ _ _ _ _ J)|apply (sh_pos _ _ _ _ _ _ _ _ _ _ _ _ _ J)|reflexivity|apply (sh_free _ _ _ _ _ _ _ _ _ _ _ _ _ J)].
    - (* XPush *) destruct HE as [Ho Hpush]. pose proof (sh_vec _ _ _ _ _ _ _ _ _ _ _ _ _ J) as HV. destruct (core_room _ _ _ _ _ HP _ _ _ _ _ _ _ _ _ C) as [_ Hcap]. rewrite Epc in Hcap. specialize (Hcap k p q x eq_refl Hpush). pose proof (sh_pos _ _ _ _ _ _ _ _ _ _ _ _ _ J) as Hpos.
      destruct (not_stuck (vctl E) E vm (fun _ => True) _ _ _ 1%nat x (p_inv _ _ _ _ _ HV) eq_refl) as (y & x' & Hq); [destruct Hpush as [-> _]; discriminate|]. change (qstep (vctl E) tid (c_ex s) x = Some (y, x')) in Hq. rewrite Hq. eexists _, _. split; [reflexivity|].
      destruct (vec_push E _ _ _ _ p _ _ _ HV Hpush ltac:(intros Hcl; specialize (Hcap Hcl); lia) Hq) as [Hle [(Hp' & HV')|(Eq' & HV')]].
      + pose proof Hp' as [Ep' _]. rewrite Ep'. apply X_same; [exact C| |cbn [UMixKnow.kE]; auto|auto..|unfold room; cbn [put_ex c_ex]; lia|go Epc]. cbn [xhand locks_of xpend_at xproj_at]. eapply sh_ex; [exact J|exact HV'|lia|reflexivity|apply (sh_free _ _ _ _ _ _ _ _ _ _ _ _ _ J)].
      + rewrite Eq'. exists G, (p :: F), H, [], (Some (k, XUnl1 p q true)). split; [|split; [left; auto|]; split; [auto|]; left; exists (XUnl1 p q true); rewrite Epc; auto].
        apply (core_X s G F H k (c_pc t) I); [exact C| |apply C|exact Hlst|exact Logic.I|].
        * cbn [xhd xhand xlk locks_of xpd xpend_at xpr xproj_at]. eapply sh_ex; [exact J|exact HV'|lia| |].
          -- rewrite app_nil_r. rewrite <- app_assoc. reflexivity.
          -- intros z Hz. apply elem_of_cons in Hz as [-> |Hz]; [exact Ho|]. apply (sh_free _ _ _ _ _ _ _ _ _ _ _ _ _ J). exact Hz.
        * intros v pi -> _. apply shrink_same; auto. unfold room. cbn [put_ex c_ex]. lia.
    - (* XUnl1 *) assert (Hpl : (p < n)%nat) by (apply (S0 sf_lock_lt _ _ _ _ _ _ _ _ J); apply elem_of_app; right; left). destruct (S0 sf_lock_at _ _ _ _ _ _ _ _ J p Hpl) as (o & Ho & _). rewrite Ho. eexists _, _. split; [reflexivity|].
      apply (X_unlock _ _ _ _ _ _ _ _ (Some (k, XUnl2 q ok)) (RErased false)); [exact C|go Epc..|]. split; [reflexivity|]. split; [exact Logic.I|]. repeat split; go Epc.
    - (* XUnl2 *) assert (Hpl : (q < n)%nat) by (apply (S0 sf_lock_lt _ _ _ _ _ _ _ _ J); apply elem_of_app; right; left). destruct (S0 sf_lock_at _ _ _ _ _ _ _ _ J q Hpl) as (o & Ho & _). rewrite Ho. eexists _, _. split; [reflexivity|]. destruct ok; cbn [again].
      + apply (X_unlock _ _ _ _ _ _ _ _ None); [exact C|go Epc..].
      + apply (X_unlock _ _ _ _ _ _ _ _ (Some (k, FOcc FEr1 (bkt k))) (RErased false)); [exact C|go Epc..|]. split; [reflexivity|]. split; [apply Hst0|]. repeat split; go Epc.
  Qed.
End ers.
