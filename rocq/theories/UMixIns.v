(** The steps of an insert that runs next to one erase (C68). *)
From Verif Require Import Base Conc SlotModel SlotSpec SlotProofs VectorModel VectorProofs VectorConcProofs UnorderedModel UnorderedSpec UnorderedProofs UConcModel UConcProofs UEraseModel UEraseProofs UMixSpec UMixVec UMixShape UMixKnow UMixCore.

Section ins.
  Context {K V : Type} (kf : V -> K) (hash : K -> Z) (keq : K -> K -> bool) (bc E : nat).
  Hypothesis HP : key_equality keq /\ hash_respects keq hash /\ sizes_ok bc E.
  Context (M0 : list V) (ii ie : nat).
  Notation n := (bc + E)%nat.
  Notation bkt := (bkt hash bc).
  Notation shape := (shape kf hash keq bc E).
  Notation ev := (nat * option ((cop K V * cret) * list V))%type.
  Notation lst := (lst (K:=K) M0).
  Notation since := (since (K:=K) M0).
  Notation kI := (kI kf hash keq bc E M0 ii).
  Notation kE := (kE kf hash keq bc M0 ie).
  Notation grow := (grow (K:=K) M0 ie).
  Notation walk := (walk bc E).
  Notation iwalk := (iwalk kf hash keq bc E M0 ii).
  Notation ewalk := (ewalk bc E).
  Notation absent := (absent kf hash keq bc).
  Notation core := (core kf hash keq bc E M0 ii ie).
  Notation ilk := (ilk kf hash bc).
  Notation "'S0' f" := (f kf hash keq bc E HP) (at level 10, f at level 9, only parsing).
  Implicit Types (s : cshared V) (G : list (option V * list (nat * V))) (F D L : list nat) (a b : qthread Z) (H : list ev) (I : option (V * upc)) (X : option (K * upc)) (t : cthread K V).

  Lemma next_nat i o j : Z.of_nat i + o = Z.of_nat j -> next_entry i o = Some j.
  Proof. intros Ho. unfold next_entry. rewrite Ho, (proj2 (Z.leb_le _ _)) by lia. rewrite Nat2Z.id. reflexivity. Qed.
  (** *** walking *)
  Lemma walk_lt s G F D L m a b c us pre suf i : shape s G F D L m a b -> (c < bc)%nat -> walk s G c us pre suf i -> (i < n)%nat.
  Proof using HP.
    intros J Hc (tl & W1 & W2 & W3 & W4). assert (Hi : i ∈ us ++ suf) by (rewrite W2; left). apply elem_of_app in Hi as [Hi|Hi]; [apply W4; exact Hi|]. apply (S0 sf_node _ _ _ _ _ _ _ _ J c i Hc). rewrite W1. apply elem_of_app; auto.
  Qed.
  Lemma walk_start s G F D L m a b c : shape s G F D L m a b -> (c < bc)%nat -> walk s G c [] [] (lst_of G c) c.
  Proof using HP. intros J Hc. exists (gpos (gb G c)). split; [reflexivity|]. split; [reflexivity|]. split; [exact (sh_link _ _ _ _ _ _ _ _ _ _ _ _ _ J c Hc)|]. intros x Hx. inversion Hx. Qed.
  Lemma walk_next s G c us pre suf i o : walk s G c us pre suf i -> c_off s !! i = Some o -> o <> 0 ->
    exists j us' pre' suf', next_entry i o = Some j /\ walk s G c us' pre' suf' j /\ (forall x, x ∈ us' -> x ∈ us) /\ (forall x, x ∈ pre' -> x ∈ pre \/ x = i).
  Proof.
    intros (tl & W1 & W2 & W3 & W4) Ho Hne. destruct tl as [|j tl]; cbn [linked] in W3; [rewrite W3 in Ho; congruence|]. destruct W3 as (N1 & N2 & N3). rewrite N2 in Ho. injection Ho as <-. exists j.
    destruct us as [|z us]; cbn in W2.
    - subst suf. exists [], (pre ++ [i]), (j :: tl). split; [apply next_nat; lia|]. split; [exists tl; rewrite W1, <- app_assoc; split; [reflexivity|]; split; [reflexivity|]; split; [exact N3|exact W4]|]. split; [auto|]. intros x Hx. apply elem_of_app in Hx as [Hx|Hx]; [auto|]. apply elem_of_list_singleton in Hx. auto.
    - injection W2 as -> W2. exists us, pre, suf. split; [apply next_nat; lia|]. split; [exists tl; split; [exact W1|]; split; [exact W2|]; split; [exact N3|]; intros x Hx; apply W4; right; exact Hx|]. split; [intros x Hx; right; exact Hx|auto].
  Qed.
  Lemma walk_end s G c us pre suf i : walk s G c us pre suf i -> c_off s !! i = Some 0 -> (us = [] /\ suf = [i]) \/ (us = [i] /\ suf = []).
  Proof.
    intros (tl & W1 & W2 & W3 & W4) Ho. destruct tl as [|j tl]; cbn [linked] in W3; [|destruct W3 as (N1 & N2 & N3); rewrite N2 in Ho; injection Ho; lia].
    destruct us as [|z us]; cbn in W2; [auto|]. injection W2 as -> W2. apply app_nil in W2 as [-> ->]. auto.
  Qed.
  Lemma node_occ s G F D L m a b c i : shape s G F D L m a b -> (c < bc)%nat -> i ∈ lst_of G c -> c_occ s !! i = Some true -> exists w, (i, w) ∈ ents G c.
  Proof using HP.
    intros J Hc Hi Ho. apply elem_of_cons in Hi as [-> |Hi]; [|apply ents_excess; exact Hi]. pose proof (sh_head _ _ _ _ _ _ _ _ _ _ _ _ _ J c Hc) as Hh. rewrite Ho in Hh. destruct (gb G c).1 as [w|] eqn:Ew; [|discriminate]. exists w. apply ents_head. exact Ew.
  Qed.
  Lemma iwalk_occ s G F H I X (v : V) i : core s G F H I X -> iwalk s G H (kf v) false i -> c_occ s !! i = Some true -> exists w, c_values s !! i = Some (Some w) /\ since ii H (fun M => w ∈ M).
  Proof using HP.
    intros C (us & pre & suf & (tl & W1 & W2 & W3 & W4) & _ & _ & Hu) Ho. pose proof (k_sh _ _ _ _ _ _ _ _ _ _ _ _ _ _ C) as J. assert (Hc : (bkt (kf v) < bc)%nat) by apply (mx_bkt hash keq bc E HP).
    destruct (decide (i ∈ us)) as [Hi|Hi]; [destruct (sh_val _ _ _ _ _ _ _ _ _ _ _ _ _ J i Ho) as [w Hw]; exists w; eauto|].
    assert (Hs : i ∈ lst_of G (bkt (kf v))). { rewrite W1. assert (Hx : i ∈ us ++ suf) by (rewrite W2; left). apply elem_of_app in Hx as [Hx|Hx]; [contradiction|]. apply elem_of_app; auto. }
    destruct (node_occ _ _ _ _ _ _ _ _ _ _ J Hc Hs Ho) as [w Hw]. exists w. split; [apply (sh_ent _ _ _ _ _ _ _ _ _ _ _ _ _ J _ i w Hc Hw)|]. apply since_now. rewrite (k_lst _ _ _ _ _ _ _ _ _ _ _ _ _ _ C). apply (S0 sf_vals _ _ _ _ _ _ _ _ J). eauto.
  Qed.
  Lemma iwalk_clear s G F H I X (v : V) i : core s G F H I X -> iwalk s G H (kf v) false i -> (c_occ s !! i = Some false \/ exists w, c_values s !! i = Some (Some w) /\ keq (kf w) (kf v) = false) -> iwalk s G H (kf v) true i.
  Proof using HP.
    intros C (us & pre & suf & W & W2 & W3 & Hu) Ho. pose proof (k_sh _ _ _ _ _ _ _ _ _ _ _ _ _ _ C) as J. assert (Hc : (bkt (kf v) < bc)%nat) by apply (mx_bkt hash keq bc E HP).
    exists us, pre, suf. split; [exact W|]. split; [exact W2|]. split; [|exact Hu]. intros _ w Hw. destruct (sh_ent _ _ _ _ _ _ _ _ _ _ _ _ _ J _ i w Hc Hw) as [V1 V2]. destruct Ho as [Ho|(w' & Hw' & Hk)]; congruence.
  Qed.
  Lemma iwalk_next s G H (k : K) i o : iwalk s G H k true i -> c_off s !! i = Some o -> exists j, next_entry i o = Some j /\ iwalk s G H k false j.
  Proof.
    intros (us & pre & suf & W & W2 & W3 & Hu) Ho. destruct (decide (o = 0)) as [-> |Hne].
    - exists i. split; [apply next_nat; lia|]. exists us, pre, suf. split; [exact W|]. split; [exact W2|]. split; [discriminate|exact Hu].
    - destruct (walk_next _ _ _ _ _ _ _ _ W Ho Hne) as (j & us' & pre' & suf' & Hj & W' & Hu' & Hp'). exists j. split; [exact Hj|]. exists us', pre', suf'. split; [exact W'|]. split; [|split; [discriminate|intros x w Hx; apply (Hu x w); auto]].
      intros x w Hx Hxw. destruct (Hp' x Hx) as [Hx'| ->]; [eauto|]. apply W3; auto.
  Qed.
  Lemma iwalk_absent s G H (k : K) i : iwalk s G H k true i -> c_off s !! i = Some 0 -> absent G k.
  Proof.
    intros (us & pre & suf & W & W2 & W3 & Hu) Ho x w Hx. pose proof (ents_pos _ _ _ _ Hx) as Hl. destruct W as (tl & E1 & W). rewrite E1 in Hl. apply elem_of_app in Hl as [Hl|Hl]; [eauto|].
    destruct (walk_end s G (bkt k) us pre suf i) as [[-> ->]|[-> ->]]; [exists tl; auto|exact Ho| |inversion Hl]. apply elem_of_list_singleton in Hl as ->. auto.
  Qed.
  Lemma iwalk_start s G F H I X (k : K) : core s G F H I X -> iwalk s G H k false (bkt k).
  Proof using HP.
    intros C. exists [], [], (lst_of G (bkt k)). split; [eapply walk_start; [apply (k_sh _ _ _ _ _ _ _ _ _ _ _ _ _ _ C)|apply (mx_bkt hash keq bc E HP)]|]. split; [intros x w Hx; inversion Hx|]. split; [discriminate|]. intros x w Hx; inversion Hx.
  Qed.
  Lemma ewalk_lt s G F D L m a b c o i : shape s G F D L m a b -> (c < bc)%nat -> ewalk s G c o i -> (i < n)%nat.
  Proof using HP. intros J Hc (us & pre & suf & W & _). eapply walk_lt; eauto. Qed.
  Lemma ewalk_next s G c e i o : ewalk s G c e i -> c_off s !! i = Some o -> exists j, next_entry i o = Some j /\ ewalk s G c e j.
  Proof.
    intros (us & pre & suf & W & He) Ho. destruct (decide (o = 0)) as [-> |Hne]; [exists i; split; [apply next_nat; lia|exists us, pre, suf; auto]|].
    destruct (walk_next _ _ _ _ _ _ _ _ W Ho Hne) as (j & us' & pre' & suf' & Hj & W' & Hu' & Hp'). exists j. split; [exact Hj|]. exists us', pre', suf'. split; [exact W'|]. intros e' He'. destruct (He e' He') as [H1 [H2|H2]]; (split; [exact H1|]); [auto|]. right. intros Hx. apply H2. auto.
  Qed.
  Lemma ewalk_end s G F D L m a b c e i : shape s G F D L m a b -> (c < bc)%nat -> ewalk s G c (Some e) i -> c_off s !! i = Some 0 -> (e < n)%nat /\ (i = e -> isend G c e).
  Proof using HP.
    intros J Hc (us & pre & suf & W & He) Ho. destruct (He e eq_refl) as [H1 H2]. split; [exact H1|]. intros ->. pose proof W as (tl & W1 & _ & _ & W4). destruct (walk_end _ _ _ _ _ _ _ W Ho) as [[-> ->]|[-> ->]].
    - unfold isend. unfold lst_of in W1. destruct (gpos (gb G c)) as [|z P] using rev_ind; [destruct pre as [|? [|]]; cbn in W1; injection W1; auto; discriminate|]. rewrite lend_snoc. rewrite app_comm_cons in W1. apply app_inj_tail in W1 as [_ ->]. reflexivity.
    - exfalso. destruct (W4 e ltac:(left)) as [Hr Hn]. destruct H2 as [H2|H2]; [|apply H2; left]. exact (S0 sf_out _ _ _ _ _ _ _ _ J e c Hc ltac:(lia) Hn H2).
  Qed.

  (** *** steps *)
  Definition ipendr (v : V) (pc : upc) : list (cop K V * cret) := match pc with IUnlB (Some p) | IUnlL _ (Some p) => [(CInsert v, RInserted p)] | _ => [] end.
  Definition inext s G F H X t (v : V) s' t' : Prop := exists G' F' H' d I', core s' G' F' H' I' X /\ hstep ii H H' d /\ (forall p, some_at s p -> some_at s' p) /\
    ((exists pc', t' = cgo t pc' /\ I' = Some (v, pc') /\ ipendr v pc' = ipendr v (c_pc t) ++ d) \/ (exists r, t' = cfinish t (CInsert v) r /\ I' = None /\ ipendr v (c_pc t) ++ d = [(CInsert v, r)])).

  Lemma core_I s G F H v pc X s' G' F' H' I' : core s G F H (Some (v, pc)) X ->
    shape s' G' F' (ihd I' ++ xhd X) (ilk I' ++ xlk X) (ipd I' + xpd X) (ipr I') (xpr X) -> traced kf keq E M0 H' -> lst H' = G' ≫= gvals ->
    (match I' with Some (v, pc) => kI s' G' H' v pc | None => True end) ->
    (forall k pe, X = Some (k, pe) -> ii <> ie -> grow (xneed pe) (xhand pe) (bkt k) s G H s' G' H') -> core s' G' F' H' I' X.
  Proof.
    intros C J T E1 HI HX. assert (Hone : ii = ie -> X = None) by (intros He; destruct (k_one _ _ _ _ _ _ _ _ _ _ _ _ _ _ C He) as [|]; [discriminate|assumption]).
    split; auto. destruct X as [[k pe]|]; [|exact Logic.I]. eapply kE_grow; [exact (k_E _ _ _ _ _ _ _ _ _ _ _ _ _ _ C)|]. apply HX; [reflexivity|]. intros He. specialize (Hone He). discriminate.
  Qed.
  Lemma I_same s G F H v X t s' pc' : core s G F H (Some (v, c_pc t)) X ->
    shape s' G F (ihand pc' ++ xhd X) (ilk (Some (v, pc')) ++ xlk X) (ipend_at pc' + xpd X) (iproj_at pc') (xpr X) -> kI s' G H v pc' -> (forall p, some_at s p -> some_at s' p) ->
    (forall k pe x, X = Some (k, pe) -> x ∈ xneed pe -> c_off s' !! x = c_off s !! x) -> (forall x, x ∈ xhd X -> c_occ s' !! x = c_occ s !! x) -> ipendr v pc' = ipendr v (c_pc t) -> inext s G F H X t v s' (cgo t pc').
  Proof.
    intros C J HI Hv H1 H2 Hp. exists G, F, H, [], (Some (v, pc')). split; [|split; [left; auto|]; split; [exact Hv|]; left; exists pc'; rewrite app_nil_r; auto].
    apply (core_I s G F H v (c_pc t) X); auto; try solve [apply C]. intros k pe -> _. apply grow_same; eauto.
  Qed.
  (** the thread moves on without an effect *)
  Lemma I_go s G F H v X t pc' : core s G F H (Some (v, c_pc t)) X -> kI s G H v pc' -> ihand pc' = ihand (c_pc t) -> lock_at (bkt (kf v)) pc' = lock_at (bkt (kf v)) (c_pc t) -> ipend_at pc' = ipend_at (c_pc t) -> iproj_at pc' = iproj_at (c_pc t) ->
    ipendr v pc' = ipendr v (c_pc t) -> inext s G F H X t v s (cgo t pc').
  Proof.
    intros C HI H1 H2 H3 H4 H5. apply I_same; auto. pose proof (k_sh _ _ _ _ _ _ _ _ _ _ _ _ _ _ C) as J. unfold UMixCore.ilk in *. cbn [ihd ipd ipr] in J. rewrite H1, H2, H3, H4. exact J.
  Qed.
  Lemma I_lock s G F H v X t e pc' : core s G F H (Some (v, c_pc t)) X -> (e < n)%nat -> lk (c_locks s) e = false -> kI s G H v pc' -> ihand pc' = ihand (c_pc t) -> lock_at (bkt (kf v)) (c_pc t) = None -> lock_at (bkt (kf v)) pc' = Some e ->
    ipend_at pc' = ipend_at (c_pc t) -> iproj_at pc' = iproj_at (c_pc t) -> ipendr v pc' = ipendr v (c_pc t) -> inext s G F H X t v (put_lock s e true) (cgo t pc').
  Proof.
    intros C He Hl HI H1 H2 H2' H3 H4 H5. apply I_same; auto. pose proof (k_sh _ _ _ _ _ _ _ _ _ _ _ _ _ _ C) as J. unfold UMixCore.ilk in *. cbn [ihd ipd ipr] in J. rewrite H1, H2', H3, H4. rewrite H2 in J. cbn [app] in *. apply sh_lock_on; auto.
    intros Hin. apply (sh_lock _ _ _ _ _ _ _ _ _ _ _ _ _ J) in Hin. congruence.
  Qed.
  Lemma I_unlock s G F H v X t e I' r : core s G F H (Some (v, c_pc t)) X -> lock_at (bkt (kf v)) (c_pc t) = Some e -> ihand (c_pc t) = [] -> ipend_at (c_pc t) = 0 -> iproj_at (c_pc t) = fresh_call [] ->
    (I' = None \/ I' = Some (v, UFullCheck)) -> (I' = None -> ipendr v (c_pc t) = [(CInsert v, r)]) -> (I' <> None -> ipendr v (c_pc t) = []) ->
    inext s G F H X t v (put_lock s e false) (match I' with None => cfinish t (CInsert v) r | Some (_, pc) => cgo t pc end).
  Proof using HP.
    intros C Hl H1 H2 H3 HI Hr Hr'. exists G, F, H, [], I'. pose proof (k_sh _ _ _ _ _ _ _ _ _ _ _ _ _ _ C) as J. unfold UMixCore.ilk in J. cbn [ihd ipd ipr] in J. rewrite Hl, H1, H2, H3 in J. cbn [app] in J.
    split; [|split; [left; auto|]; split; [auto|]; destruct HI as [-> | ->]; [right; exists r; rewrite app_nil_r; auto|left; eexists; rewrite app_nil_r; split; [reflexivity|]; split; [reflexivity|]; rewrite Hr' by discriminate; reflexivity]].
    apply (core_I s G F H v (c_pc t) X); auto; try solve [apply C].
    - destruct HI as [-> | ->]; cbn; (eapply (S0 sh_lock_off); [exact J|reflexivity]).
    - destruct HI as [-> | ->]; exact Logic.I.
    - intros k pe _ _. apply grow_same; auto.
  Qed.
  (** the insert is refused *)
  Lemma I_refuse s G F H v X t (Q : list V -> Prop) : core s G F H (Some (v, c_pc t)) X -> ihand (c_pc t) = [] -> lock_at (bkt (kf v)) (c_pc t) = None -> ipend_at (c_pc t) = 0 -> iproj_at (c_pc t) = fresh_call [] -> ipendr v (c_pc t) = [] ->
    since ii H Q -> (forall M, Q M -> holds kf keq M (kf v) \/ (E <= length M + 1)%nat) -> inext s G F H X t v s (cfinish t (CInsert v) RNotInserted).
  Proof using HP.
    intros C H1 H2 H3 H4 H5 (A & B & EH & Ho & HQ) HM. set (x := (CInsert v, RNotInserted) : cop K V * cret). exists G, F, (A ++ (ii, Some (x, lst A)) :: B), [x], None. pose proof (k_sh _ _ _ _ _ _ _ _ _ _ _ _ _ _ C) as J. unfold UMixCore.ilk in J. cbn [ihd ipd ipr] in J. rewrite H1, H2, H3, H4 in J. cbn [app] in J.
    split; [|split; [right; exists A, B, x, (lst A); auto|]; split; [auto|]; right; exists RNotInserted; rewrite H5; auto].
    apply (core_I s G F H v (c_pc t) X); auto; try solve [apply C].
    - apply (S0 traced_put); [rewrite <- EH; apply C|]. split; [auto|reflexivity].
    - rewrite lst_put, <- EH. apply C.
    - intros k pe _ Hne. apply grow_same; auto. intros Q' HQ'. rewrite EH in HQ'. apply since_put; [congruence|exact HQ'].
  Qed.
  (** the insert takes effect *)
  Lemma I_commit s G F H v X t s' G' p pc' : core s G F H (Some (v, c_pc t)) X ->
    shape s' G' F (ihand pc' ++ xhd X) (ilk (Some (v, pc')) ++ xlk X) (ipend_at pc' + xpd X) (iproj_at pc') (xpr X) ->
    absent G (kf v) -> G' ≫= gvals ≡ₚ v :: (G ≫= gvals) -> (forall H', kI s' G' H' v pc') -> (forall p, some_at s p -> some_at s' p) -> ipendr v (c_pc t) = [] -> ipendr v pc' = [(CInsert v, RInserted p)] ->
    (forall k pe H', X = Some (k, pe) -> (forall Q, since ie H Q -> since ie H' Q) -> grow (xneed pe) (xhand pe) (bkt k) s G H s' G' H') -> inext s G F H X t v s' (cgo t pc').
  Proof using HP.
    intros C J Ha Hg HI Hv Hp Hp' HX. set (x := (CInsert v, RInserted p) : cop K V * cret). exists G', F, (H ++ [(ii, Some (x, G' ≫= gvals))]), [x], (Some (v, pc')).
    split; [|split; [right; exists H, [], x, (G' ≫= gvals); rewrite app_nil_r; auto|]; split; [exact Hv|]; left; exists pc'; rewrite Hp, Hp'; auto].
    apply (core_I s G F H v (c_pc t) X); auto.
    - apply (S0 traced_snoc); [apply C|]. rewrite (k_lst _ _ _ _ _ _ _ _ _ _ _ _ _ _ C). split; [|exact Hg]. rewrite (S0 sf_holds _ _ _ _ _ _ _ _ (k_sh _ _ _ _ _ _ _ _ _ _ _ _ _ _ C)). intros (y & w & Hy & Hk). rewrite (Ha y w Hy) in Hk. discriminate.
    - apply lst_snoc.
    - intros k pe EX Hne. apply (HX k pe); [exact EX|]. intros Q HQ. apply since_ext; [congruence|exact HQ].
  Qed.

  Local Ltac go Epc := rewrite ?Epc; reflexivity.
  Lemma need_listed s G F H I k pe x : core s G F H I (Some (k, pe)) -> x ∈ xneed pe -> x ∈ xlk (Some (k, pe)) /\ exists c, (c < bc)%nat /\ x ∈ lst_of G c.
  Proof using HP.
    intros C Hx. pose proof (k_E _ _ _ _ _ _ _ _ _ _ _ _ _ _ C) as HE. cbn beta iota in HE. assert (Hc : (bkt k < bc)%nat) by apply (mx_bkt hash keq bc E HP).
    assert (Hr : forall p q, ready kf hash keq bc G k p q -> x ∈ [p; q] -> exists c, (c < bc)%nat /\ x ∈ lst_of G c).
    { intros p q (w & es1 & es2 & HB & _) Hx'. destruct (lst_behind kf _ _ _ _ _ _ _ HB) as (L1 & E1 & _). exists (bkt k). split; [exact Hc|]. rewrite E1. apply elem_of_app. right. apply elem_of_cons in Hx' as [-> |Hx']; [right; left|]. apply elem_of_list_singleton in Hx' as ->. left. }
    destruct pe; cbn [xneed] in Hx; try (inversion Hx; fail); cbn [xlk locks_of]; (split; [exact Hx|]); cbn [UMixKnow.kE] in HE; destruct HE as [HE _]; eauto.
  Qed.
  Lemma hand_off s G F H I X p o : core s G F H I X -> p ∈ ihd I -> forall k pe x, X = Some (k, pe) -> x ∈ xneed pe -> c_off (put_off s p o) !! x = c_off s !! x.
  Proof using HP.
    intros C Hp k pe x -> Hx. cbn [put_off c_off]. apply list_lookup_insert_ne. intros <-. destruct (need_listed _ _ _ _ _ _ _ _ C Hx) as (_ & c & Hc & Hl).
    destruct (S0 sf_d _ _ _ _ _ _ _ _ (k_sh _ _ _ _ _ _ _ _ _ _ _ _ _ _ C) p) as [Hr Hn]; [apply elem_of_app; auto|]. exact (S0 sf_out _ _ _ _ _ _ _ _ (k_sh _ _ _ _ _ _ _ _ _ _ _ _ _ _ C) p c Hc ltac:(lia) Hn Hl).
  Qed.
  Lemma hand_occ s G F H I X p (o : bool) : core s G F H I X -> p ∈ ihd I -> forall x, x ∈ xhd X -> c_occ (put_occ s p o) !! x = c_occ s !! x.
  Proof using HP.
    intros C Hp x Hx. cbn [put_occ c_occ]. apply list_lookup_insert_ne. intros <-. pose proof (S0 sf_nodup _ _ _ _ _ _ _ _ (k_sh _ _ _ _ _ _ _ _ _ _ _ _ _ _ C)) as ND.
    apply NoDup_app in ND as (_ & _ & ND). apply NoDup_app in ND as (ND & _ & _). apply NoDup_app in ND as (_ & ND & _). exact (ND p Hp Hx).
  Qed.

  Lemma insert_step tid s G F H X t v rest : core s G F H (Some (v, c_pc t)) X -> c_prog t = CInsert v :: rest -> exists s' t', estep kf hash keq bc E tid s t = Some (s', t') /\ inext s G F H X t v s' t'.
  Proof using HP.
    intros C Hprog. pose proof (k_sh _ _ _ _ _ _ _ _ _ _ _ _ _ _ C) as J. pose proof (k_I _ _ _ _ _ _ _ _ _ _ _ _ _ _ C) as HI. cbn beta iota in HI. unfold UMixCore.ilk in J. cbn [ihd ipd ipr] in J.
    assert (Hb : bucket_of hash bc (kf v) = Some (bkt (kf v))) by apply (mx_bucket hash keq bc E HP). assert (Hc : (bkt (kf v) < bc)%nat) by apply (mx_bkt hash keq bc E HP).
    assert (Hlst := k_lst _ _ _ _ _ _ _ _ _ _ _ _ _ _ C). assert (Hlo : length (c_occ s) = n) by apply J.
    assert (Hold : forall p v0 q, some_at s q -> some_at (put_value s p (Some v0)) q).
    { intros p v0 q [w Hw]. unfold some_at. cbn [put_value c_values]. destruct (decide (p = q)) as [-> |Hne]; [exists v0; apply list_lookup_insert; apply lookup_lt_Some in Hw; exact Hw|exists w; rewrite list_lookup_insert_ne by exact Hne; exact Hw]. }
    assert (Hex : exists pc, c_pc t = pc) by eauto. destruct Hex as [pc Epc]. unfold estep, ustep. rewrite Hprog, Epc. cbn [op_key]. rewrite Hb. rewrite Epc in HI, J.
    destruct pc as [| | |x i|x i|x i|x i|x i|x i|x i pr|x i pr| | | | | | |r|e|e q|e p|e p|e p|e p|e p|e r|p|p|p|p|p ok|p q|p q|p|p q|p q|p q o|p q o|p q|p q|p q|p q x|p q ok|q ok];
      cbn [UMixKnow.kI] in HI; try contradiction; cbn [ihand lock_at ipend_at iproj_at app] in J.
    - (* UFullCheck *) eexists _, _. split; [reflexivity|]. destruct (Z.eqb_spec (c_count s) (Z.of_nat (length (c_occ s)))) as [He|He].
      + apply (I_refuse _ _ _ _ _ _ _ (fun M => (E <= length M + 1)%nat)); [exact C|go Epc..| |auto]. apply since_now. rewrite Hlst. refine (S0 core_count _ _ _ _ _ _ _ _ _ C _ _); [cbn; go Epc|congruence].
      + apply I_go; [exact C|exact Logic.I|go Epc..].
    - (* UEmptyCheck *) destruct (core_room _ _ _ _ _ HP _ _ _ _ _ _ _ _ _ C) as [Hcap _]. pose proof (sh_pos _ _ _ _ _ _ _ _ _ _ _ _ _ J) as Hpos. eexists _, _. split; [reflexivity|].
      assert (Hcl : clamp_size (Z.of_nat E) (q_c (c_ex s)) = q_c (c_ex s)). { unfold clamp_size. rewrite (proj2 (Z.ltb_ge _ 0)), (proj2 (Z.ltb_ge (Z.of_nat E) _)) by lia. reflexivity. } rewrite Hcl.
      destruct (Z.eqb_spec (q_c (c_ex s)) 0) as [He|He].
      + apply (I_refuse _ _ _ _ _ _ _ (fun M => (E <= length M + 1)%nat)); [exact C|go Epc..| |auto]. apply since_now. rewrite Hlst. refine (S0 core_empty _ _ _ _ _ _ _ _ _ C _ _ He); cbn; go Epc.
      + apply I_go; [exact C| |go Epc..]. cbn [UMixKnow.kI]. split; [unfold room; lia|]. split; [exact Logic.I|]. eapply iwalk_start. exact C.
    - (* FOcc *) destruct HI as (R & Cx & W). pose proof W as (us & pre & suf & W0 & _). pose proof (walk_lt _ _ _ _ _ _ _ _ _ _ _ _ _ J Hc W0) as Hi. destruct (S0 sf_occ_at _ _ _ _ _ _ _ _ J i Hi) as [o Ho]. rewrite Ho. eexists _, _. split; [reflexivity|].
      destruct o; (apply I_go; [exact C| |go Epc..]); cbn [UMixKnow.kI]; (split; [exact R|]); (split; [exact Cx|]); [split; [exact W|eapply iwalk_occ; eauto]|eapply iwalk_clear; eauto].
    - (* FVal *) destruct HI as (R & Cx & W & w & Hw & Hs). rewrite Hw. eexists _, _. split; [reflexivity|]. destruct (keq (kf w) (kf v)) eqn:Ek.
      + destruct x as [| | |e chk| | |]; try contradiction; cbn [after_find].
        * apply (I_refuse _ _ _ _ _ _ _ (fun M => w ∈ M)); [exact C|go Epc..|exact Hs|]. intros M HM. left. exists w. auto.
        * apply I_go; [exact C|exact Logic.I|go Epc..].
        * apply I_go; [exact C|exact Logic.I|go Epc..].
      + apply I_go; [exact C| |go Epc..]. cbn [UMixKnow.kI]. split; [exact R|]. split; [exact Cx|]. eapply iwalk_clear; eauto.
    - (* FOff *) destruct HI as (R & Cx & W). pose proof W as (us & pre & suf & W0 & _). pose proof (walk_lt _ _ _ _ _ _ _ _ _ _ _ _ _ J Hc W0) as Hi. destruct (S0 sf_off_at _ _ _ _ _ _ _ _ J i Hi) as [o Ho]. rewrite Ho. eexists _, _. split; [reflexivity|].
      destruct (Z.eqb_spec o 0) as [-> |Hne]; [|apply I_go; [exact C| |go Epc..]; cbn [UMixKnow.kI]; auto]. pose proof (iwalk_absent _ _ _ _ _ W Ho) as Ha.
      destruct x as [| | |e chk| | |]; try contradiction; cbn [after_find].
      + apply I_go; [exact C|exact R|go Epc..].
      + apply I_go; [exact C|exact Ha|go Epc..].
      + destruct Cx as [Hel Hend]. case_bool_decide as Heq.
        * cbn [lock_at] in J. replace s with (put_ex s (c_ex s)) at 2 by (destruct s; reflexivity). apply I_same; [exact C| |cbn [UMixKnow.kI]; split; [exact Ha|]; split; [apply Hend; congruence|]; split; [split; reflexivity|intros _; exact R]|auto|auto|auto|go Epc].
          unfold UMixCore.ilk. cbn [ihand lock_at ipend_at iproj_at app]. eapply sh_ex; [exact J|apply pair_enter_pop; apply (sh_vec _ _ _ _ _ _ _ _ _ _ _ _ _ J)|apply (sh_pos _ _ _ _ _ _ _ _ _ _ _ _ _ J)|reflexivity|apply (sh_free _ _ _ _ _ _ _ _ _ _ _ _ _ J)].
        * apply I_go; [exact C|exact Logic.I|go Epc..].
    - (* FAdd *) destruct HI as (R & Cx & W). pose proof W as (us & pre & suf & W0 & _). pose proof (walk_lt _ _ _ _ _ _ _ _ _ _ _ _ _ J Hc W0) as Hi. destruct (S0 sf_off_at _ _ _ _ _ _ _ _ J i Hi) as [o Ho]. rewrite Ho.
      destruct (iwalk_next _ _ _ _ _ _ W Ho) as (j & Hj & W'). rewrite Hj. eexists _, _. split; [reflexivity|]. apply I_go; [exact C| |go Epc..]. cbn [UMixKnow.kI]. auto.
    - (* EOff *) destruct HI as (R & W). pose proof (ewalk_lt _ _ _ _ _ _ _ _ _ _ _ J Hc W) as Hi. destruct (S0 sf_off_at _ _ _ _ _ _ _ _ J i Hi) as [o Ho]. rewrite Ho. eexists _, _. split; [reflexivity|].
      destruct (Z.eqb_spec o 0) as [-> |Hne]; [|apply I_go; [exact C| |go Epc..]; cbn [UMixKnow.kI]; auto]. destruct x as [|e]; cbn [after_end].
      + apply I_go; [exact C| |go Epc..]. cbn [UMixKnow.kI]. auto.
      + destruct (ewalk_end _ _ _ _ _ _ _ _ _ _ _ J Hc W Ho) as [He1 He2]. apply I_go; [exact C| |go Epc..]. cbn [UMixKnow.kI ictx]. split; [exact R|]. split; [auto|]. eapply iwalk_start. exact C.
    - (* EAdd *) destruct HI as (R & W). pose proof (ewalk_lt _ _ _ _ _ _ _ _ _ _ _ J Hc W) as Hi. destruct (S0 sf_off_at _ _ _ _ _ _ _ _ J i Hi) as [o Ho]. rewrite Ho.
      destruct (ewalk_next _ _ _ _ _ _ W Ho) as (j & Hj & W'). rewrite Hj. eexists _, _. split; [reflexivity|]. apply I_go; [exact C| |go Epc..]. cbn [UMixKnow.kI]. auto.
    - (* IOcc *) destruct (S0 sf_occ_at _ _ _ _ _ _ _ _ J (bkt (kf v)) ltac:(lia)) as [o Ho]. rewrite Ho. eexists _, _. split; [reflexivity|]. destruct o; (apply I_go; [exact C| |go Epc..]); cbn [UMixKnow.kI]; [|exact HI].
      split; [exact HI|]. exists [], [], (lst_of G (bkt (kf v))). split; [eapply walk_start; [exact J|exact Hc]|]. discriminate.
    - (* ILockB *) destruct (S0 sf_lock_at _ _ _ _ _ _ _ _ J (bkt (kf v)) ltac:(lia)) as (o & Ho & _). rewrite Ho. destruct o; eexists _, _; (split; [reflexivity|]); cbn [again].
      + apply I_go; [exact C|exact Logic.I|go Epc..].
      + apply I_lock; [exact C|lia|unfold lk; rewrite Ho; reflexivity| |go Epc..]. cbn [UMixKnow.kI]. split; [exact HI|]. split; [exact Logic.I|]. eapply iwalk_start. exact C.
    - (* IOccB *) rewrite (sh_head _ _ _ _ _ _ _ _ _ _ _ _ _ J _ Hc). eexists _, _. split; [reflexivity|]. destruct (gb G (bkt (kf v))).1 eqn:Eg; cbn [is_some]; (apply I_go; [exact C| |go Epc..]); cbn [UMixKnow.kI]; auto.
    - (* IConB *) destruct HI as [Ha Hh]. destruct (S0 sf_val_at _ _ _ _ _ _ _ _ J (bkt (kf v)) ltac:(lia)) as [o Ho]. rewrite Ho. eexists _, _. split; [reflexivity|]. apply I_same; [exact C| | |apply Hold|auto|auto|go Epc].
      + unfold UMixCore.ilk. cbn [ihand lock_at ipend_at iproj_at app]. apply sh_put_value; [exact J|]. intros c' w Hc' Hw. destruct (sh_ent _ _ _ _ _ _ _ _ _ _ _ _ _ J c' _ w Hc' Hw) as [_ H1]. rewrite (sh_head _ _ _ _ _ _ _ _ _ _ _ _ _ J _ Hc), Hh in H1. discriminate.
      + cbn [UMixKnow.kI put_value c_values]. split; [exact Ha|]. split; [exact Hh|]. apply list_lookup_insert. apply lookup_lt_Some in Ho. exact Ho.
    - (* ICntB *) eexists _, _. split; [reflexivity|]. apply I_same; [exact C| |exact HI|auto|auto|auto|go Epc]. unfold UMixCore.ilk. cbn [ihand lock_at ipend_at iproj_at app].
      eapply sh_re; [eapply sh_cnt with (d := 1); exact J|reflexivity|reflexivity|lia].
    - (* ISetB *) destruct HI as (Ha & Hh & Hv). rewrite (sh_head _ _ _ _ _ _ _ _ _ _ _ _ _ J _ Hc). eexists _, _. split; [reflexivity|].
      assert (HcG : (bkt (kf v) < length G)%nat) by (rewrite (sh_lg _ _ _ _ _ _ _ _ _ _ _ _ _ J); exact Hc).
      apply (I_commit _ _ _ _ _ _ _ _ (<[bkt (kf v) := (Some v, (gb G (bkt (kf v))).2)]> G) (bkt (kf v))); [exact C| |exact Ha| |intros; exact Logic.I|auto|go Epc|reflexivity|].
      + unfold UMixCore.ilk. cbn [ihand lock_at ipend_at iproj_at app]. eapply sh_re; [apply (S0 sh_set_head); eauto|reflexivity|reflexivity|lia].
      + destruct (S0 vals_upd _ _ _ _ _ _ _ _ (bkt (kf v)) (Some v, (gb G (bkt (kf v))).2) J Hc) as (rest' & E1 & E2). rewrite E2, E1. unfold gvals. rewrite Hh. reflexivity.
      + intros k pe H' -> Hs. eapply (S0 grow_head); eauto.
    - (* IUnlB *) destruct (S0 sf_lock_at _ _ _ _ _ _ _ _ J (bkt (kf v)) ltac:(lia)) as (o & Ho & _). rewrite Ho. eexists _, _. split; [reflexivity|]. destruct r as [p|]; cbn [again].
      + apply (I_unlock _ _ _ _ _ _ _ _ None); [exact C|go Epc..|auto|intros _; go Epc|congruence].
      + apply (I_unlock _ _ _ _ _ _ _ _ (Some (v, UFullCheck)) RNotInserted); [exact C|go Epc..|auto|discriminate|intros _; go Epc].
    - (* ILockL *) destruct HI as [R He]. destruct (S0 sf_lock_at _ _ _ _ _ _ _ _ J e He) as (o & Ho & _). rewrite Ho. destruct o; eexists _, _; (split; [reflexivity|]); cbn [again].
      + apply I_go; [exact C|exact Logic.I|go Epc..].
      + apply I_lock; [exact C|exact He|unfold lk; rewrite Ho; reflexivity| |go Epc..]. cbn [UMixKnow.kI eopt]. split; [exact R|]. exists [], [], (lst_of G (bkt (kf v))). split; [eapply walk_start; [exact J|exact Hc]|]. intros e' He'. injection He' as <-. split; [exact He|]. right. intros Hx. inversion Hx.
    - (* IPop *) destruct HI as (Ha & Hend & Hpop & Hroom). pose proof (sh_vec _ _ _ _ _ _ _ _ _ _ _ _ _ J) as HV. destruct (core_room _ _ _ _ _ HP _ _ _ _ _ _ _ _ _ C) as [Hcap _]. pose proof (sh_pos _ _ _ _ _ _ _ _ _ _ _ _ _ J) as Hpos.
      destruct (not_stuck (vctl E) E vm (fun _ => True) _ _ _ 0%nat q (p_inv _ _ _ _ _ HV) eq_refl) as (y & q' & Hq); [destruct Hpop as [-> _]; discriminate|]. change (qstep (vctl E) tid (c_ex s) q = Some (y, q')) in Hq. rewrite Hq.
      pose proof (vec_pop_nonneg E _ _ _ _ _ _ _ HV Hpop Hroom Hpos Hq) as Hpos'.
      destruct (vec_pop E _ _ _ _ _ _ _ HV Hpop Hroom Hcap Hq) as [(Hp' & Hr' & HV')|(p & F' & Eq' & El' & HF & HV')].
      + pose proof Hp' as [Ep' _]. rewrite Ep'. eexists _, _. split; [reflexivity|]. apply I_same; [exact C| |cbn [UMixKnow.kI]; auto|auto|auto|auto|go Epc]. unfold UMixCore.ilk. cbn [ihand lock_at ipend_at iproj_at app].
        eapply sh_ex; [exact J|exact HV'|exact Hpos'|reflexivity|apply (sh_free _ _ _ _ _ _ _ _ _ _ _ _ _ J)].
      + rewrite Eq', El'. rewrite (proj2 (Z.leb_le _ _)) by lia. rewrite Nat2Z.id. eexists _, _. split; [reflexivity|].
        exists G, F', H, [], (Some (v, IConL e p)). split; [|split; [left; auto|]; split; [auto|]; left; exists (IConL e p); rewrite Epc; auto].
        apply (core_I s G F H v (c_pc t) X); [exact C| |apply C|exact Hlst| |].
        * unfold UMixCore.ilk. cbn [ihd ihand lock_at ipd ipend_at ipr iproj_at app]. eapply sh_ex; [exact J|exact HV'|exact Hpos'| |].
          -- rewrite HF. rewrite <- Permutation_middle. reflexivity.
          -- intros x Hx. apply (sh_free _ _ _ _ _ _ _ _ _ _ _ _ _ J). rewrite HF. right. exact Hx.
        * cbn [UMixKnow.kI put_ex c_occ]. split; [exact Ha|]. split; [exact Hend|]. apply (sh_free _ _ _ _ _ _ _ _ _ _ _ _ _ J). rewrite HF. left.
        * intros k pe _ _. apply grow_same; auto.
    - (* IConL *) destruct HI as (Ha & Hend & Ho). assert (HpD : p ∈ p :: xhd X) by left. destruct (S0 sf_d _ _ _ _ _ _ _ _ J p HpD) as [Hr Hn]. destruct (S0 sf_val_at _ _ _ _ _ _ _ _ J p ltac:(lia)) as [o Hov]. rewrite Hov. eexists _, _. split; [reflexivity|].
      apply I_same; [exact C| | |apply Hold|auto|auto|go Epc].
      + unfold UMixCore.ilk. cbn [ihand lock_at ipend_at iproj_at app]. apply sh_put_value; [exact J|]. intros c' w Hc' Hw. apply ents_pos in Hw. exact (S0 sf_out _ _ _ _ _ _ _ _ J p c' Hc' ltac:(lia) Hn Hw).
      + cbn [UMixKnow.kI put_value c_values c_occ]. split; [exact Ha|]. split; [exact Hend|]. split; [exact Ho|]. apply list_lookup_insert. apply lookup_lt_Some in Hov. exact Hov.
    - (* IOffL *) destruct HI as (Ha & Hend & Ho & Hv). assert (HpD : p ∈ p :: xhd X) by left. destruct (S0 sf_d _ _ _ _ _ _ _ _ J p HpD) as [Hr Hn]. destruct (S0 sf_off_at _ _ _ _ _ _ _ _ J p ltac:(lia)) as [o Hof]. rewrite Hof. eexists _, _. split; [reflexivity|].
      apply I_same; [exact C| | |auto| |auto|go Epc].
      + unfold UMixCore.ilk. cbn [ihand lock_at ipend_at iproj_at app]. apply (S0 sh_put_off); [exact J|left].
      + cbn [UMixKnow.kI put_off c_values c_occ c_off]. split; [exact Ha|]. split; [exact Hend|]. split; [exact Ho|]. split; [exact Hv|]. apply list_lookup_insert. apply lookup_lt_Some in Hof. exact Hof.
      + eapply hand_off; [exact C|]. cbn [ihd]. rewrite Epc. left.
    - (* ICntL *) eexists _, _. split; [reflexivity|]. apply I_same; [exact C| |exact HI|auto|auto|auto|go Epc]. unfold UMixCore.ilk. cbn [ihand lock_at ipend_at iproj_at app].
      eapply sh_re; [eapply sh_cnt with (d := 1); exact J|reflexivity|reflexivity|lia].
    - (* ISetL *) destruct HI as (Ha & Hend & Ho & Hv & Hof). rewrite Ho. eexists _, _. split; [reflexivity|]. apply I_same; [exact C| | |auto|auto| |go Epc].
      + unfold UMixCore.ilk. cbn [ihand lock_at ipend_at iproj_at app]. apply (S0 sh_put_occ); [exact J|left|eauto].
      + cbn [UMixKnow.kI put_occ c_values c_occ c_off]. split; [exact Ha|]. split; [exact Hend|]. split; [apply list_lookup_insert; apply lookup_lt_Some in Ho; exact Ho|]. auto.
      + eapply hand_occ; [exact C|]. cbn [ihd]. rewrite Epc. left.
    - (* ILinkL *) destruct HI as (Ha & Hend & Ho & Hv & Hof). assert (Hel : e ∈ lst_of G (bkt (kf v))) by (rewrite Hend; apply lend_elem). destruct (S0 sf_off_at _ _ _ _ _ _ _ _ J e (S0 sf_node _ _ _ _ _ _ _ _ J _ e Hc Hel)) as [o Hoe]. rewrite Hoe. eexists _, _. split; [reflexivity|].
      assert (HcG : (bkt (kf v) < length G)%nat) by (rewrite (sh_lg _ _ _ _ _ _ _ _ _ _ _ _ _ J); exact Hc).
      apply (I_commit _ _ _ _ _ _ _ _ (<[bkt (kf v) := ((gb G (bkt (kf v))).1, (gb G (bkt (kf v))).2 ++ [(p, v)])]> G) p); [exact C| |exact Ha| |intros; exact Logic.I|auto|go Epc|reflexivity|].
      + unfold UMixCore.ilk. cbn [ihand lock_at ipend_at iproj_at app]. eapply sh_re; [eapply (S0 sh_link_in) with (D' := xhd X); [exact J|reflexivity|exact Hend|exact Hof|exact Hv|exact Ho|exact Ha]|reflexivity|reflexivity|lia].
      + destruct (S0 vals_upd _ _ _ _ _ _ _ _ (bkt (kf v)) ((gb G (bkt (kf v))).1, (gb G (bkt (kf v))).2 ++ [(p, v)]) J Hc) as (rest' & E1 & E2). rewrite E2, E1. unfold gvals. cbn [fst snd]. rewrite fmap_app. cbn [fmap list_fmap snd]. rewrite app_assoc, <- (Permutation_cons_append _ v). reflexivity.
      + intros k pe H' -> Hs. apply grow_link; [exact HcG| |exact Hs]. intros Hx. destruct (need_listed _ _ _ _ _ _ _ _ C Hx) as [Hx' _]. pose proof (sh_lnd _ _ _ _ _ _ _ _ _ _ _ _ _ J) as ND. apply NoDup_cons in ND as [ND _]. contradiction.
    - (* IUnlL *) assert (Hel : (e < n)%nat) by (apply (S0 sf_lock_lt _ _ _ _ _ _ _ _ J); left). destruct (S0 sf_lock_at _ _ _ _ _ _ _ _ J e Hel) as (o & Ho & _). rewrite Ho. eexists _, _. split; [reflexivity|]. destruct r as [p|]; cbn [again].
      + apply (I_unlock _ _ _ _ _ _ _ _ None); [exact C|go Epc..|auto|intros _; go Epc|congruence].
      + apply (I_unlock _ _ _ _ _ _ _ _ (Some (v, UFullCheck)) RNotInserted); [exact C|go Epc..|auto|discriminate|intros _; go Epc].
  Qed.
End ins.
