(** One running insert and one running erase: the invariant, and how steps change it (C68). *)
From Verif Require Import Base Conc SlotModel SlotSpec SlotProofs VectorModel VectorProofs VectorConcProofs UnorderedModel UnorderedSpec UnorderedProofs UConcModel UConcProofs UEraseModel UEraseProofs UMixSpec UMixVec UMixShape UMixKnow.

Section core.
  Context {K V : Type} (kf : V -> K) (hash : K -> Z) (keq : K -> K -> bool) (bc E : nat).
  Hypothesis HP : key_equality keq /\ hash_respects keq hash /\ sizes_ok bc E.
  Context (M0 : list V) (ii ie : nat).
  Notation n := (bc + E)%nat.
  Notation bkt := (bkt hash bc).
  Notation shape := (shape kf hash keq bc E).
  Notation ev := (nat * option ((cop K V * cret) * list V))%type.
  Notation lst := (lst (K:=K) M0).
  Notation since := (since (K:=K) M0).
  Notation kI := (kI kf hash keq bc E M0 ii).
  Notation kE := (kE kf hash keq bc M0 ie).
  Notation shrink := (shrink (K:=K) bc E M0 ii).
  Notation grow := (grow (K:=K) M0 ie).
  Notation walk := (walk bc E).
  Notation absent := (absent kf hash keq bc).
  Implicit Types (s : cshared V) (G : list (option V * list (nat * V))) (F D L : list nat) (a b : qthread Z) (H : list ev) (I : option (V * upc)) (X : option (K * upc)).

  Fixpoint traced (M : list V) H : Prop :=
    match H with
    | [] => True
    | (_, None) :: H => traced M H
    | (_, Some (x, M')) :: H => call_explained kf keq E M x M' /\ traced M' H
    end.
  Definition ilk I : list nat := match I with Some (v, pc) => match lock_at (bkt (kf v)) pc with Some e => [e] | None => [] end | None => [] end.
  Definition ihd I : list nat := match I with Some (_, pc) => ihand pc | None => [] end.
  Definition ipend_at (pc : upc) : Z := match pc with ISetB | ISetL _ _ | ILinkL _ _ => 1 | _ => 0 end.
  Definition ipd I : Z := match I with Some (_, pc) => ipend_at pc | None => 0 end.
  Definition iproj_at (pc : upc) : qthread Z := match pc with IPop _ q => q | _ => fresh_call [] end.
  Definition ipr I : qthread Z := match I with Some (_, pc) => iproj_at pc | None => fresh_call [] end.
  Definition xlk X : list nat := match X with Some (_, pc) => locks_of pc | None => [] end.
  Definition xhd X : list nat := match X with Some (_, pc) => xhand pc | None => [] end.
  Definition xpend_at (pc : upc) : Z := match pc with XCntB _ | XReset _ _ | XCnt _ _ => 1 | _ => 0 end.
  Definition xpd X : Z := match X with Some (_, pc) => xpend_at pc | None => 0 end.
  Definition xproj_at (pc : upc) : qthread Z := match pc with XPush _ _ x => x | _ => fresh_call [] end.
  Definition xpr X : qthread Z := match X with Some (_, pc) => xproj_at pc | None => fresh_call [] end.

  Record core s G F H I X : Prop := {
    k_sh : shape s G F (ihd I ++ xhd X) (ilk I ++ xlk X) (ipd I + xpd X) (ipr I) (xpr X);
    k_tr : traced M0 H;
    k_lst : lst H = G ≫= gvals;
    k_one : ii = ie -> I = None \/ X = None;
    k_I : match I with Some (v, pc) => kI s G H v pc | None => True end;
    k_E : match X with Some (k, pc) => kE s G H k pc | None => True end
  }.

  (** *** traces *)
  Lemma traced_app M H1 H2 : traced M (H1 ++ H2) <-> traced M H1 /\ traced (foldl (fun M e => match e.2 with Some x => x.2 | None => M end) M H1) H2.
  Proof.
    revert M. induction H1 as [|[j [[x M']|]] H1 IH]; intros M; cbn [app traced foldl snd]; [tauto|rewrite IH; tauto|rewrite IH; tauto].
  Qed.
  Lemma traced_put H1 H2 j x : traced M0 (H1 ++ H2) -> call_explained kf keq E (lst H1) x (lst H1) -> traced M0 (H1 ++ (j, Some (x, lst H1)) :: H2).
  Proof. intros HT Hx. apply traced_app in HT as [T1 T2]. apply traced_app. split; [exact T1|]. cbn [traced]. split; [exact Hx|exact T2]. Qed.
  Lemma traced_snoc H j x M' : traced M0 H -> call_explained kf keq E (lst H) x M' -> traced M0 (H ++ [(j, Some (x, M'))]).
  Proof. intros HT Hx. apply traced_app. split; [exact HT|]. cbn [traced]. split; [exact Hx|exact Logic.I]. Qed.
  Lemma lst_snoc H j x M' : lst (H ++ [(j, Some (x, M'))]) = M'.
  Proof. rewrite lst_app. reflexivity. Qed.
  Definition hstep (j : nat) H H' (d : list (cop K V * cret)) : Prop :=
    (d = [] /\ H' = H) \/ exists H1 H2 x M, d = [x] /\ H = H1 ++ H2 /\ own j H2 = [] /\ H' = H1 ++ (j, Some (x, M)) :: H2.

  (** *** how the erase changes the lists, for the insert *)
  Lemma shrink_same l h c s G H s' H' : c_values s' = c_values s -> c_off s' = c_off s -> (forall p, p ∈ h -> c_occ s' !! p = c_occ s !! p) -> (room s -> room s') -> (forall Q, since ii H Q -> since ii H' Q) ->
    shrink l h c s G H s' G H'.
  Proof.
    intros H1 H2 H3 H4 H5. split; auto.
    - intros p Hp. rewrite H2. auto.
    - intros us pre suf i (tl & W1 & W2 & W3 & W4). exists us, pre, suf. split; [exists tl; rewrite H2; auto|]. auto.
  Qed.
  Lemma shrink_reset l h c s G F D L m a b H c0 H' : shape s G F D L m a b -> (c0 < bc)%nat -> (forall p, p ∈ h -> p ∈ D) -> (forall Q, since ii H Q -> since ii H' Q) ->
    shrink l h c s G H (put_occ s c0 false) (<[c0 := (None, (gb G c0).2)]> G) H'.
  Proof using HP.
    intros I Hc Hh Hs. assert (HcG : (c0 < length G)%nat) by (rewrite (sh_lg _ _ _ _ _ _ _ _ _ _ _ _ _ I); exact Hc).
    set (G' := <[c0 := (None, (gb G c0).2)]> G). assert (H2 : (gb G' c).2 = (gb G c).2) by (unfold G'; destruct (decide (c0 = c)) as [<- |Hne]; [rewrite gb_same by exact HcG; reflexivity|rewrite gb_other by exact Hne; reflexivity]).
    assert (Hp : gpos (gb G' c) = gpos (gb G c)) by (unfold gpos; rewrite H2; reflexivity).
    assert (Hall : G' ≫= gpos ≡ₚ G ≫= gpos). { destruct (sf_split kf hash keq bc E HP _ _ _ _ _ _ _ _ I c0 Hc) as (rest & E1 & E2). unfold G'. rewrite E2, E1. reflexivity. }
    split; auto.
    - intros x w Hx. unfold G' in Hx. rewrite ents_upd in Hx by exact HcG. destruct (decide (c0 = c)) as [<- |Hne]; [|exact Hx]. unfold ents_of in Hx. cbn [fst snd app] in Hx. apply elem_of_app. auto.
    - intros Hn. unfold G'. destruct (decide (c0 = c)) as [<- |Hne]; [rewrite gb_same by exact HcG; reflexivity|rewrite gb_other by exact Hne; exact Hn].
    - intros e _. unfold lst_of. rewrite Hp. auto.
    - intros e _. unfold isend. rewrite Hp. auto.
    - intros p Hp0. cbn [put_occ c_occ c_off]. destruct (sf_d kf hash keq bc E HP _ _ _ _ _ _ _ _ I p (Hh p Hp0)) as [Hr _]. rewrite list_lookup_insert_ne by lia. auto.
    - intros us pre suf i (tl & W1 & W2 & W3 & W4). exists us, pre, suf. split; [|auto]. exists tl. cbn [put_occ c_off]. unfold lst_of. rewrite Hp. split; [exact W1|]. split; [exact W2|]. split; [exact W3|]. intros x Hx. rewrite Hall. auto.
  Qed.
  Lemma lst_behind G c q p (w : V) es1 es2 : behind G c q p w es1 es2 -> exists L1, lst_of G c = L1 ++ q :: p :: es2.*1 /\ lst_of (<[c := ((gb G c).1, es1 ++ es2)]> G) c = (if decide (c < length G)%nat then L1 ++ q :: es2.*1 else [c]).
  Proof.
    intros [Eg Eq]. unfold lst_of, gpos. rewrite Eg, fmap_app. cbn [fmap list_fmap fst].
    assert (HL : exists L1, c :: es1.*1 = L1 ++ [q]). { destruct (exists_last (l:=c :: es1.*1)) as (L1 & z & Ez); [discriminate|]. exists L1. rewrite Ez. f_equal. f_equal. rewrite <- Eq. unfold lend. destruct es1 as [|e0 es1] using rev_ind; [destruct L1 as [|? [|]]; cbn in Ez; injection Ez; auto; intros; discriminate|]. rewrite fmap_app in *. cbn [fmap list_fmap] in *. rewrite last_snoc. rewrite app_comm_cons in Ez. apply app_inj_tail in Ez as [_ <-]. reflexivity. }
    destruct HL as [L1 HL]. exists L1. split; [rewrite app_comm_cons, HL, <- app_assoc; reflexivity|]. case_decide as Hd.
    - rewrite gb_same by exact Hd. cbn [snd]. rewrite fmap_app, app_comm_cons, HL, <- app_assoc. reflexivity.
    - rewrite list_insert_ge by lia. rewrite Eg in *. unfold gb in Eg. rewrite lookup_ge_None_2 in Eg by lia. cbn in Eg. destruct es1; discriminate.
  Qed.
  Lemma shrink_unlink l h c s G F D L m a b H c0 q p w es1 es2 po qo H' : shape s G F D L m a b -> (c0 < bc)%nat -> (c < bc)%nat -> behind G c0 q p w es1 es2 -> c_off s !! p = Some po -> c_off s !! q = Some qo ->
    l <> Some p -> l <> Some q -> (forall x, x ∈ h -> x ∈ D) -> (forall Q, since ii H Q -> since ii H' Q) -> since ii H' (fun M => w ∈ M) ->
    shrink l h c s G H (put_off s q (if po =? 0 then 0 else qo + po)) (<[c0 := ((gb G c0).1, es1 ++ es2)]> G) H'.
  Proof using HP.
    intros I Hc Hcc HB Hpo Hqo Hlp Hlq Hh Hs Hw. pose proof HB as [Eg Eq]. assert (HcG : (c0 < length G)%nat) by (rewrite (sh_lg _ _ _ _ _ _ _ _ _ _ _ _ _ I); exact Hc).
    set (G' := <[c0 := ((gb G c0).1, es1 ++ es2)]> G). destruct (lst_behind _ _ _ _ _ _ _ HB) as (L1 & Hl1 & Hl2). rewrite decide_True in Hl2 by exact HcG. fold G' in Hl2.
    assert (Hpe : (p, w) ∈ ents G c0) by (apply elem_of_app; right; rewrite Eg; apply elem_of_app; right; left).
    destruct (sh_ent _ _ _ _ _ _ _ _ _ _ _ _ _ I c0 p w Hc Hpe) as [Hpv _].
    assert (Hpg : p ∈ gpos (gb G c0)) by (unfold gpos; rewrite Eg, fmap_app; apply elem_of_app; right; left). pose proof (sf_chain kf hash keq bc E HP _ _ _ _ _ _ _ _ I c0 p Hc Hpg) as Hpr.
    assert (Hql : q ∈ lst_of G c0) by (rewrite Hl1; apply elem_of_app; right; left).
    pose proof (sf_chain_nodup kf hash keq bc E HP _ _ _ _ _ _ _ _ I c0 Hc) as ND. rewrite Hl1 in ND.
    assert (HnG : forall x, x ∉ G ≫= gpos -> x ∉ G' ≫= gpos).
    { destruct (sf_split kf hash keq bc E HP _ _ _ _ _ _ _ _ I c0 Hc) as (rest & E1 & E2). intros x Hx Hx'. apply Hx. unfold G' in Hx'. rewrite E2 in Hx'. rewrite E1. unfold gpos in *. cbn [snd] in Hx'. rewrite Eg. rewrite fmap_app in *. rewrite !elem_of_app in *. cbn [fmap list_fmap]. rewrite elem_of_cons. tauto. }
    assert (HpG : p ∉ G' ≫= gpos).
    { pose proof (sf_nodup kf hash keq bc E HP _ _ _ _ _ _ _ _ I) as ND'. apply NoDup_app in ND' as (ND' & _ & _). destruct (sf_split kf hash keq bc E HP _ _ _ _ _ _ _ _ I c0 Hc) as (rest & E1 & E2).
      rewrite E1 in ND'. unfold G'. rewrite E2. unfold gpos in *. cbn [snd]. rewrite Eg in ND'. rewrite fmap_app in *. cbn [fmap list_fmap fst] in ND'. rewrite <- app_assoc in ND'. cbn [app] in ND'. rewrite <- Permutation_middle in ND'. apply NoDup_cons in ND' as [ND' _]. rewrite <- app_assoc. exact ND'. }
    assert (Hother : c0 <> c -> lst_of G' c = lst_of G c) by (intros Hne; unfold lst_of, G'; rewrite gb_other by exact Hne; reflexivity).
    split; auto.
    - intros x w' Hx. unfold G' in Hx. rewrite ents_upd in Hx by exact HcG. destruct (decide (c0 = c)) as [<- |Hne]; [|exact Hx]. unfold ents, ents_of in *. cbn [fst snd] in Hx. rewrite Eg. rewrite !elem_of_app in *. rewrite elem_of_cons. tauto.
    - intros Hn. unfold G'. destruct (decide (c0 = c)) as [<- |Hne]; [rewrite gb_same by exact HcG; exact Hn|rewrite gb_other by exact Hne; exact Hn].
    - intros e He Hin. destruct (decide (c0 = c)) as [<- |Hne]; [|rewrite Hother by exact Hne; exact Hin]. rewrite Hl2. rewrite Hl1 in Hin. rewrite elem_of_app, !elem_of_cons in *. destruct Hin as [?|[?|[?|?]]]; auto. congruence.
    - intros e He. unfold isend. destruct (decide (c0 = c)) as [<- |Hne]; [|unfold G'; rewrite gb_other by exact Hne; auto]. unfold G'. rewrite gb_same by exact HcG. unfold gpos. cbn [snd]. rewrite Eg, !fmap_app. cbn [fmap list_fmap fst]. rewrite !lend_app, lend_cons. intros Ee. destruct es2 as [|e2 es2]; cbn [fmap list_fmap] in *; [cbn in Ee; congruence|]. rewrite !lend_cons in *. exact Ee.
    - intros x Hx. cbn [put_off c_occ c_off]. split; [reflexivity|]. apply list_lookup_insert_ne. intros <-. destruct (sf_d kf hash keq bc E HP _ _ _ _ _ _ _ _ I q (Hh q Hx)) as [Hr Hn]. exact (sf_out kf hash keq bc E HP _ _ _ _ _ _ _ _ I q c0 Hc ltac:(lia) Hn Hql).
    - intros us pre suf i (tl & W1 & W2 & W3 & W4).
      assert (Hqus : q ∉ us). { intros Hq. destruct (W4 q Hq) as [Hr Hn]. exact (sf_out kf hash keq bc E HP _ _ _ _ _ _ _ _ I q c0 Hc ltac:(lia) Hn Hql). }
      assert (Hskip : q ∉ suf -> linked (c_off (put_off s q (if po =? 0 then 0 else qo + po))) i tl).
      { intros Hq. cbn [put_off c_off]. apply linked_ne; [|exact W3]. rewrite <- W2. rewrite elem_of_app. tauto. }
      destruct (decide (c0 = c)) as [<- |Hne].
      + rewrite Hl1 in W1. symmetry in W1. destruct (split_two _ _ _ _ _ _ W1) as [(k & -> & Ek)|[[-> Ek]|(k & Ek & ->)]].
        * exists us, (L1 ++ q :: k), suf. split.
          { exists tl. rewrite Hl2, Ek, <- app_assoc. split; [reflexivity|]. split; [exact W2|]. split; [|intros x Hx; split; [apply W4; exact Hx|apply HnG; apply W4; exact Hx]]. apply Hskip. rewrite Ek in ND. apply NoDup_app in ND as (_ & _ & ND). apply NoDup_cons in ND as [ND _]. intros Hq. apply ND. right. apply elem_of_app. auto. }
          split; [auto|]. intros x. rewrite !elem_of_app, !elem_of_cons. tauto.
        * subst suf. exists (us ++ [p]), (L1 ++ [q]), es2.*1. split.
          { exists tl. rewrite Hl2, <- !app_assoc. split; [reflexivity|]. split; [exact W2|]. split; [apply Hskip; apply NoDup_app in ND as (_ & _ & ND); apply NoDup_cons in ND as [ND _]; exact ND|]. intros x Hx. apply elem_of_app in Hx as [Hx|Hx]; [split; [apply W4; exact Hx|apply HnG; apply W4; exact Hx]|]. apply elem_of_list_singleton in Hx as ->. auto. }
          split; [|auto]. intros x Hx. apply elem_of_app in Hx as [Hx|Hx]; [auto|]. apply elem_of_list_singleton in Hx as ->. right. split; [exact Hlp|]. intros w' Hw'. rewrite Hpv in Hw'. injection Hw' as <-. exact Hw.
        * exists us, pre, (k ++ q :: es2.*1).
          assert (Htl : exists P1, i :: P1 = us ++ k ++ [q] /\ tl = P1 ++ p :: es2.*1).
          { assert (E0 : (us ++ k ++ [q]) ++ p :: es2.*1 = i :: tl) by (rewrite <- W2, <- !app_assoc; reflexivity). destruct (us ++ k ++ [q]) as [|z P1] eqn:Ez; [destruct us; [destruct k|]; discriminate|]. cbn in E0. injection E0 as -> E0. exists P1. auto. }
          destruct Htl as (P1 & EP & ->). assert (Hlend : lend i P1 = q). { assert (Hl0 : last (i :: P1) = Some q) by (rewrite EP, app_assoc, last_snoc; reflexivity). rewrite last_cons in Hl0. unfold lend. destruct (last P1); cbn; congruence. }
          split; [|auto]. exists (P1 ++ es2.*1). rewrite Hl2, Ek, <- app_assoc. split; [reflexivity|]. split; [replace (us ++ k ++ q :: es2.*1) with ((us ++ k ++ [q]) ++ es2.*1) by (rewrite <- !app_assoc; reflexivity); rewrite <- EP; reflexivity|].
          split; [|intros x Hx; split; [apply W4; exact Hx|apply HnG; apply W4; exact Hx]]. cbn [put_off c_off]. rewrite <- Hlend at 1. apply (linked_remove _ _ _ p); [exact W3|exact (linked_nodup _ _ _ W3)|exact Hpo|rewrite Hlend; exact Hqo].
      + exists us, pre, suf. split; [|auto]. exists tl. rewrite Hother by exact Hne. split; [exact W1|]. split; [exact W2|]. split; [|intros x Hx; split; [apply W4; exact Hx|apply HnG; apply W4; exact Hx]]. apply Hskip. intros Hq. apply Hne.
        assert (Hqc : q ∈ lst_of G c) by (rewrite W1; apply elem_of_app; auto). exact (sf_same kf hash keq bc E HP _ _ _ _ _ _ _ _ I c0 c q Hc Hcc Hql Hqc).
  Qed.

  (** *** how the insert changes the lists, for the erase *)
  Lemma grow_same l h c s G H s' H' : (forall p, some_at s p -> some_at s' p) -> (forall x, x ∈ l -> c_off s' !! x = c_off s !! x) -> (forall p, p ∈ h -> c_occ s' !! p = c_occ s !! p) -> (forall Q, since ie H Q -> since ie H' Q) ->
    grow l h c s G H s' G H'.
  Proof. intros H1 H2 H3 H4. split; auto. exists []. rewrite app_nil_r. reflexivity. Qed.
  Lemma grow_head l h c s G F D L m a b H c0 v H' : shape s G F D L m a b -> (c0 < bc)%nat -> (gb G c0).1 = None -> (forall p, p ∈ h -> p ∈ D) -> (forall Q, since ie H Q -> since ie H' Q) ->
    grow l h c s G H (put_occ s c0 true) (<[c0 := (Some v, (gb G c0).2)]> G) H'.
  Proof using HP.
    intros I Hc Hn Hh Hs. assert (HcG : (c0 < length G)%nat) by (rewrite (sh_lg _ _ _ _ _ _ _ _ _ _ _ _ _ I); exact Hc).
    split; auto.
    - intros x w Hx. rewrite ents_upd by exact HcG. destruct (decide (c0 = c)) as [<- |Hne]; [|exact Hx]. unfold ents, ents_of in *. rewrite Hn in Hx. cbn [fst snd app] in *. right. exact Hx.
    - exists []. rewrite app_nil_r. destruct (decide (c0 = c)) as [<- |Hne]; [rewrite gb_same by exact HcG; reflexivity|rewrite gb_other by exact Hne; reflexivity].
    - intros p Hp. cbn [put_occ c_occ]. destruct (sf_d kf hash keq bc E HP _ _ _ _ _ _ _ _ I p (Hh p Hp)) as [Hr _]. rewrite list_lookup_insert_ne by lia. auto.
  Qed.
  Lemma grow_link l h c s G H c0 v e p o H' : (c0 < length G)%nat -> e ∉ l -> (forall Q, since ie H Q -> since ie H' Q) ->
    grow l h c s G H (put_off s e o) (<[c0 := ((gb G c0).1, (gb G c0).2 ++ [(p, v)])]> G) H'.
  Proof.
    intros HcG He Hs. split; auto.
    - intros x w Hx. rewrite ents_upd by exact HcG. destruct (decide (c0 = c)) as [<- |Hne]; [|exact Hx]. unfold ents, ents_of in *. cbn [fst snd app] in *. rewrite app_assoc. apply elem_of_app. auto.
    - destruct (decide (c0 = c)) as [<- |Hne]; [rewrite gb_same by exact HcG; cbn [snd]; eauto|rewrite gb_other by exact Hne; exists []; rewrite app_nil_r; reflexivity].
    - intros x Hx. cbn [put_off c_off]. apply list_lookup_insert_ne. intros ->. contradiction.
  Qed.

  (** *** the vector of free entries *)
  Lemma core_room s G F H I X : core s G F H I X -> q_c (c_ex s) <= Z.of_nat E /\ (forall k p q x, X = Some (k, XPush p q x) -> pushing_of p x -> claimed x = false -> q_c (c_ex s) < Z.of_nat E).
  Proof using HP.
    intros C. pose proof (k_sh _ _ _ _ _ _ C) as S0. pose proof (sh_vec _ _ _ _ _ _ _ _ _ _ _ _ _ S0) as J. pose proof (p_size _ _ _ _ _ J) as Hsz. destruct (sf_sizes kf hash keq bc E HP _ _ _ _ _ _ _ _ S0) as [Hn _]. rewrite app_length in Hn.
    assert (Ha : bal (ipr I) <= 0). { destruct (p_pop _ _ _ _ _ J) as [-> |Hp]; [rewrite bal_fresh; lia|]. rewrite (bal_pop _ Hp). destruct (claimed (ipr I)); lia. }
    assert (Hb : bal (xpr X) <= Z.of_nat (length (xhd X))).
    { destruct (p_push _ _ _ _ _ J) as [-> |(p & Hp1 & Hp2)]; [rewrite bal_fresh; lia|]. rewrite (bal_push _ p Hp1 Hp2). destruct X as [[k pc]|]; cbn in *; [|discriminate]. destruct pc; cbn in *; try discriminate. destruct (claimed t); lia. }
    split; [lia|]. intros k p q x -> [Hp1 Hp2] Hc. cbn [xpr xproj_at xhd xhand length] in *. rewrite (bal_push _ p Hp1 Hp2), Hc in Hsz. lia.
  Qed.
  (** refusal for lack of room *)
  Lemma core_count s G F H I X : core s G F H I X -> ipd I = 0 -> c_count s = Z.of_nat n -> (E <= length (G ≫= gvals) + 1)%nat.
  Proof using HP.
    intros C Hi Hc. rewrite (sh_count _ _ _ _ _ _ _ _ _ _ _ _ _ (k_sh _ _ _ _ _ _ C)), Hi in Hc. assert (xpd X <= 1) by (destruct X as [[k pc]|]; cbn; [destruct pc; cbn; lia|lia]). lia.
  Qed.
  Lemma core_empty s G F H I X : core s G F H I X -> ihd I = [] -> ipr I = fresh_call [] -> q_c (c_ex s) = 0 -> (E <= length (G ≫= gvals) + 1)%nat.
  Proof using HP.
    intros C Hi Hi2 Hc. pose proof (k_sh _ _ _ _ _ _ C) as S0. pose proof (sh_vec _ _ _ _ _ _ _ _ _ _ _ _ _ S0) as J. pose proof (p_size _ _ _ _ _ J) as Hsz. destruct (sf_sizes kf hash keq bc E HP _ _ _ _ _ _ _ _ S0) as [Hn Hm]. rewrite app_length, Hi in Hn. cbn [length] in Hn.
    rewrite Hi2, bal_fresh, Hc in Hsz. assert (Hb : 0 <= bal (xpr X)). { destruct (p_push _ _ _ _ _ J) as [-> |(p & Hp1 & Hp2)]; [rewrite bal_fresh; lia|]. rewrite (bal_push _ p Hp1 Hp2). destruct (claimed (xpr X)); lia. }
    assert (length (xhd X) <= 1)%nat by (destruct X as [[k pc]|]; cbn; [destruct pc; cbn; lia|lia]). lia.
  Qed.
End core.
