(** Kernels with one inserting and one erasing thread: all runs (C68). *)
From Verif Require Import Base Conc SlotModel SlotSpec SlotProofs VectorModel VectorProofs VectorConcProofs UnorderedModel UnorderedSpec UnorderedProofs UConcModel UConcSpec UConcProofs UConcReach UConcEnd UEraseModel UEraseSpec UEraseProofs UEraseFinal UMixSpec UMixVec UMixShape UMixKnow UMixCore UMixIns UMixErs.

Section top.
  Context {K V : Type} (kf : V -> K) (hash : K -> Z) (keq : K -> K -> bool) (bc E : nat).
  Hypothesis HP : key_equality keq /\ hash_respects keq hash /\ sizes_ok bc E.
  Context (M0 : list V) (ii ie : nat).
  Notation n := (bc + E)%nat.
  Notation bkt := (bkt hash bc).
  Notation shape := (shape kf hash keq bc E).
  Notation ev := (nat * option ((cop K V * cret) * list V))%type.
  Notation call := (cop K V * cret)%type.
  Notation lst := (lst (K:=K) M0).
  Notation core := (core kf hash keq bc E M0 ii ie).
  Notation step := (estep kf hash keq bc E).
  Notation "'S0' f" := (f kf hash keq bc E HP) (at level 10, f at level 9, only parsing).
  Notation sh_of C := (k_sh _ _ _ _ _ _ _ _ _ _ _ _ _ _ C).
  Implicit Types (s : cshared V) (G : list (option V * list (nat * V))) (F D L : list nat) (H : list ev) (I : option (V * upc)) (X : option (K * upc)) (t : cthread K V) (ls : list (cthread K V)).

  Definition idle (pc : upc) : bool := match pc with UIdle => true | _ => false end.
  Lemma idle_t pc : idle pc = true <-> pc = UIdle.
  Proof. destruct pc; cbn; split; congruence. Qed.
  Lemma idle_f pc : idle pc = false <-> pc <> UIdle.
  Proof. destruct pc; cbn; split; congruence. Qed.
  Definition irun_t t : option (V * upc) := if idle (c_pc t) then None else match c_prog t with CInsert v :: _ => Some (v, c_pc t) | _ => None end.
  Definition xrun_t t : option (K * upc) := if idle (c_pc t) then None else match c_prog t with CErase k :: _ => Some (k, c_pc t) | _ => None end.
  Definition irun ls := ls !! ii ≫= irun_t.
  Definition xrun ls := ls !! ie ≫= xrun_t.
  Definition runev t : list (option call) :=
    if idle (c_pc t) then [] else match c_prog t with CInsert v :: _ => None :: (Some <$> ipendr v (c_pc t)) | CErase k :: _ => None :: (Some <$> xpendr k (c_pc t)) | _ => [] end.
  Definition evs (i : nat) H : list (option call) := (fun e : ev => fst <$> e.2) <$> own i H.
  Definition done (l : list call) : list (option call) := l ≫= fun x => [None; Some x].
  Definition finding s t : Prop := match c_pc t with UIdle => True | FOcc FUser j | FOff FUser j | FAdd FUser j => (j < n)%nat | FVal FUser j => some_at s j | _ => False end.
  Definition allowed (i : nat) (op : cop K V) : Prop := match op with CInsert _ => i = ii | CErase _ => i = ie | CFind _ => True end.
  Definition thr s (i : nat) t : Prop :=
    (forall op, op ∈ c_prog t -> allowed i op) /\ match c_prog t with [] => c_pc t = UIdle | CFind _ :: _ => finding s t | _ => True end.
  Record top s ls H : Prop := {
    t_core : exists G F, core s G F H (irun ls) (xrun ls);
    t_thr : forall i t, ls !! i = Some t -> thr s i t;
    t_evs : forall i t, ls !! i = Some t -> evs i H = done (updates (c_log t)) ++ runev t;
    t_in : forall e, e ∈ H -> (e.1 < length ls)%nat
  }.

  (** *** events *)
  Lemma evs_app i H1 H2 : evs i (H1 ++ H2) = evs i H1 ++ evs i H2.
  Proof. unfold evs. rewrite own_app, fmap_app. reflexivity. Qed.
  Lemma evs_other i j x : i <> j -> evs i [(j, x)] = [].
  Proof. intros Hne. unfold evs. rewrite own_other by exact Hne. reflexivity. Qed.
  Lemma evs_same i x : evs i [(i, x)] = [fst <$> x].
  Proof. unfold evs. rewrite own_same. reflexivity. Qed.
  Lemma evs_nil i H : own i H = [] -> evs i H = [].
  Proof. unfold evs. intros ->. reflexivity. Qed.
  Lemma evs_nil_inv i H : evs i H = [] -> own i H = [].
  Proof. unfold evs. apply fmap_nil_inv. Qed.
  Lemma done_app l1 l2 : done (l1 ++ l2) = done l1 ++ done l2.
  Proof. unfold done. apply bind_app. Qed.
  Lemma done_even l : exists m, length (done l) = (2 * m)%nat.
  Proof. exists (length l). induction l as [|x l IH]; [reflexivity|]. cbn [done mbind list_bind] in *. cbn in *. unfold done in IH. rewrite IH. lia. Qed.
  Lemma done_inj l1 l2 : done l1 = done l2 -> l1 = l2.
  Proof. revert l2. induction l1 as [|x l1 IH]; intros [|y l2] He; cbn in He; try discriminate; [reflexivity|]. injection He as -> He. f_equal. apply IH. exact He. Qed.
  Lemma updates_app l1 l2 : updates (l1 ++ l2) = updates (K:=K) (V:=V) l1 ++ updates l2.
  Proof. apply filter_app. Qed.
  Lemma evs_put i j H1 H2 x M : own j H2 = [] -> evs i (H1 ++ (j, Some (x, M)) :: H2) = evs i (H1 ++ H2) ++ (if decide (i = j) then [Some x] else []).
  Proof.
    intros Ho. change ((j, Some (x, M)) :: H2) with ([(j, Some (x, M))] ++ H2). rewrite !evs_app. destruct (decide (i = j)) as [-> |Hne].
    - rewrite (evs_nil j H2 Ho), evs_same, !app_nil_r. reflexivity.
    - rewrite evs_other by exact Hne. rewrite app_nil_r. reflexivity.
  Qed.

  (** *** a call moves on *)
  Definition tnext (op : cop K V) t t' : Prop := (exists pc', t' = cgo t pc') \/ exists r, t' = cfinish t op r.
  Definition cut (l1 ls : list (cthread K V)) H : Prop :=
    length l1 = length ls /\ exists Ha Hb, H = Ha ++ Hb /\ forall i t1, l1 !! i = Some t1 -> exists t l tail, ls !! i = Some t /\ c_log t = c_log t1 ++ l /\ c_prog t1 = l.*1 ++ c_prog t /\
      evs i Ha = done (updates (c_log t1)) ++ tail /\
      (tail = [] \/ exists op rest, c_pc t1 <> UIdle /\ c_prog t1 = op :: rest /\ is_update op = true /\ (tail = [None] \/ exists r, tail = [None; Some (op, r)])).
  Lemma cut_rel l1 ls i t t' op rest H : cut l1 ls H -> ls !! i = Some t -> c_prog t = op :: rest -> tnext op t t' -> cut l1 (<[i := t']> ls) H.
  Proof.
    intros (Hl & Ha & Hb & HH & Hc) Hi Hp Hn. split; [rewrite insert_length; exact Hl|]. exists Ha, Hb. split; [exact HH|]. intros j t1 Hj. destruct (Hc j t1 Hj) as (t2 & l & tail & H1 & H2 & H3 & H4).
    destruct (decide (i = j)) as [<- |Hne]; [|exists t2, l, tail; rewrite list_lookup_insert_ne by exact Hne; auto].
    rewrite Hi in H1. injection H1 as <-. pose proof (lookup_lt_Some _ _ _ Hi) as Hlt. destruct Hn as [[pc' ->]|[r ->]].
    - exists (cgo t pc'), l, tail. rewrite list_lookup_insert by exact Hlt. auto.
    - exists (cfinish t op r), (l ++ [(op, r)]), tail. rewrite list_lookup_insert by exact Hlt. split; [reflexivity|]. cbn [cfinish c_log c_prog]. rewrite H2, app_assoc. split; [reflexivity|].
      split; [rewrite H3, Hp, fmap_app, <- app_assoc; reflexivity|exact H4].
  Qed.
  Lemma cut_snoc l1 ls H e : cut l1 ls H -> cut l1 ls (H ++ [e]).
  Proof. intros (Hl & Ha & Hb & -> & Hc). split; [exact Hl|]. exists Ha, (Hb ++ [e]). rewrite app_assoc. auto. Qed.
  Lemma cut_put l1 ls H1 H2 i t op rest r M : cut l1 ls (H1 ++ H2) -> ls !! i = Some t -> c_prog t = op :: rest -> is_update op = true -> evs i (H1 ++ H2) = done (updates (c_log t)) ++ [None] -> own i H2 = [] ->
    cut l1 ls (H1 ++ (i, Some ((op, r), M)) :: H2).
  Proof.
    intros (Hl & Ha & Hb & HH & Hc) Hi Hp Hu He Ho. split; [exact Hl|]. destruct (app_eq_inv _ _ _ _ HH) as [(k & E2 & E3)|(k & E2 & E3)].
    - exists Ha, (k ++ (i, Some ((op, r), M)) :: H2). subst. rewrite <- app_assoc. auto.
    - exists (H1 ++ (i, Some ((op, r), M)) :: k), Hb. subst. rewrite <- app_assoc. split; [reflexivity|]. rewrite own_app in Ho. apply app_nil in Ho as [Ho1 Ho2]. intros j t1 Hj. destruct (Hc j t1 Hj) as (t2 & l & tail & J1 & J2 & J3 & J4 & J5).
      destruct (decide (j = i)) as [-> |Hne].
      + rewrite Hi in J1. injection J1 as <-. rewrite app_assoc, evs_app, (evs_nil i Hb Ho2), app_nil_r in He. rewrite J4 in He.
        assert (Hne : tail <> []). { intros ->. rewrite app_nil_r in He. destruct (done_even (updates (c_log t1))) as [m1 Hm1], (done_even (updates (c_log t))) as [m2 Hm2]. apply (f_equal length) in He. rewrite app_length, Hm1, Hm2 in He. cbn in He. lia. }
        destruct J5 as [|(op1 & rest1 & Q1 & Q2 & Q3 & Q4)]; [contradiction|].
        assert (tail = [None]) as ->. { destruct Q4 as [|[r1 ->]]; [assumption|]. apply (f_equal last) in He. rewrite last_snoc, last_app in He. discriminate. }
        apply app_inj_tail in He as [He _]. apply done_inj in He. rewrite J2, updates_app in He. rewrite <- (app_nil_r (updates (c_log t1))) in He at 1. apply app_inv_head in He.
        assert (l = []) as ->. { destruct l as [|[op2 r2] l]; [reflexivity|exfalso]. cbn [fmap list_fmap fst app] in J3. rewrite Q2 in J3. injection J3 as <- _. unfold updates in He. rewrite filter_cons_True in He by exact Q3. discriminate. }
        cbn [fmap list_fmap app] in J3. rewrite Q2, Hp in J3. injection J3 as -> ->.
        exists t, [], [None; Some (op, r)]. split; [exact Hi|]. split; [exact J2|]. split; [cbn; congruence|]. split; [|right; exists op, rest; eauto 10].
        rewrite evs_put by exact Ho1. rewrite decide_True by reflexivity. rewrite J4, <- app_assoc. reflexivity.
      + exists t2, l, tail. split; [exact J1|]. split; [exact J2|]. split; [exact J3|]. split; [|exact J5]. rewrite evs_put by exact Ho1. rewrite decide_False by exact Hne. rewrite app_nil_r. exact J4.
  Qed.
  Lemma runev_shape t : runev t = [] \/ exists op rest, c_pc t <> UIdle /\ c_prog t = op :: rest /\ is_update op = true /\ (runev t = [None] \/ exists r, runev t = [None; Some (op, r)]).
  Proof.
    unfold runev. destruct (idle (c_pc t)) eqn:Ei; [auto|]. apply idle_f in Ei. destruct (c_prog t) as [|[v|k|k] rest] eqn:Ep; auto.
    - right. exists (CInsert v), rest. split; [exact Ei|]. split; [reflexivity|]. split; [reflexivity|]. unfold ipendr. repeat case_match; eauto.
    - right. exists (CErase k), rest. split; [exact Ei|]. split; [reflexivity|]. split; [reflexivity|]. unfold xpendr. repeat case_match; eauto.
  Qed.
  Lemma cut_now s ls H : top s ls H -> cut ls ls H.
  Proof.
    intros T. split; [reflexivity|]. exists H, []. rewrite app_nil_r. split; [reflexivity|]. intros i t Hi. exists t, [], (runev t). rewrite app_nil_r. split; [exact Hi|]. split; [reflexivity|]. split; [reflexivity|]. split; [exact (t_evs _ _ _ T i t Hi)|]. apply runev_shape.
  Qed.

  (** *** steps *)
  Definition nextH s ls H (i : nat) t : Prop := exists s' t' H', step i s t = Some (s', t') /\ top s' (<[i := t']> ls) H' /\ forall l1, cut l1 ls H -> cut l1 (<[i := t']> ls) H'.
  Lemma thr_mono s s' i t : (forall p, some_at s p -> some_at s' p) -> thr s i t -> thr s' i t.
  Proof. intros Hm [H1 H2]. split; [exact H1|]. destruct (c_prog t) as [|[v|k|k] rest]; auto. unfold finding in *. destruct (c_pc t); auto. destruct c; auto. Qed.
  Lemma run_same (f : cthread K V -> option (V * upc)) ls i t t' : ls !! i = Some t -> f t' = f t -> (<[i := t']> ls) !! ii ≫= f = ls !! ii ≫= f.
  Proof. intros Hi Hf. destruct (decide (i = ii)) as [<- |Hne]; [|rewrite list_lookup_insert_ne by exact Hne; reflexivity]. rewrite list_lookup_insert by (eapply lookup_lt_Some; exact Hi). rewrite Hi. exact Hf. Qed.
  Lemma xrun_same (f : cthread K V -> option (K * upc)) ls i t t' : ls !! i = Some t -> f t' = f t -> (<[i := t']> ls) !! ie ≫= f = ls !! ie ≫= f.
  Proof. intros Hi Hf. destruct (decide (i = ie)) as [<- |Hne]; [|rewrite list_lookup_insert_ne by exact Hne; reflexivity]. rewrite list_lookup_insert by (eapply lookup_lt_Some; exact Hi). rewrite Hi. exact Hf. Qed.
  Lemma hstep_evs j H H' d i : hstep j H H' d -> evs i H' = evs i H ++ (if decide (i = j) then Some <$> d else []).
  Proof. intros [[-> ->]|(H1 & H2 & x & M & -> & -> & Ho & ->)]; [destruct (decide (i = j)); rewrite app_nil_r; reflexivity|]. rewrite evs_put by exact Ho. reflexivity. Qed.
  Lemma hstep_in j H H' d e : hstep j H H' d -> e ∈ H' -> e ∈ H \/ e.1 = j.
  Proof. intros [[-> ->]|(H1 & H2 & x & M & -> & -> & Ho & ->)]; [auto|]. rewrite !elem_of_app, elem_of_cons. intros [|[-> |]]; auto. Qed.
  Lemma hstep_cut l1 ls H H' d i t op rest : cut l1 ls H -> hstep i H H' d -> ls !! i = Some t -> c_prog t = op :: rest -> is_update op = true -> (forall x, d = [x] -> x.1 = op /\ evs i H = done (updates (c_log t)) ++ [None]) -> cut l1 ls H'.
  Proof.
    intros C [[-> ->]|(H1 & H2 & [op' r] & M & -> & -> & Ho & ->)] Hi Hp Hu Hx; [exact C|]. destruct (Hx (op', r) eq_refl) as [E1 He]. cbn [fst] in E1. subst op'. eapply cut_put; eauto.
  Qed.
  Lemma ipendr_op (v : V) pc (x : call) : x ∈ ipendr v pc -> x.1 = CInsert v.
  Proof. unfold ipendr. repeat case_match; intros Hx; try solve [inversion Hx]; apply elem_of_list_singleton in Hx as ->; reflexivity. Qed.
  Lemma xpendr_op (k : K) pc (x : call) : x ∈ xpendr k pc -> x.1 = CErase k.
  Proof. unfold xpendr. repeat case_match; intros Hx; try solve [inversion Hx]; apply elem_of_list_singleton in Hx as ->; reflexivity. Qed.
  Lemma ipendr_len (v : V) pc : (length (ipendr (K:=K) v pc) <= 1)%nat.
  Proof. unfold ipendr. repeat case_match; cbn; lia. Qed.
  Lemma xpendr_len (k : K) pc : (length (xpendr (V:=V) k pc) <= 1)%nat.
  Proof. unfold xpendr. repeat case_match; cbn; lia. Qed.
  Lemma thr_finish s i t op r : thr s i t -> thr s i (cfinish t op r).
  Proof.
    intros [H1 _]. split; cbn [cfinish c_prog c_pc].
    - intros op' Hop. apply H1. destruct (c_prog t); [exact Hop|right; exact Hop].
    - destruct (tail (c_prog t)) as [|[v|k|k] ?]; auto. exact Logic.I.
  Qed.
  (* a step of the inserting thread *)
  Lemma step_insert s ls H i t v rest : top s ls H -> ls !! i = Some t -> c_prog t = CInsert v :: rest -> c_pc t <> UIdle -> nextH s ls H i t.
  Proof using HP.
    intros T Hi Hp Hpc. destruct (t_core _ _ _ T) as (G & F & C). destruct (t_thr _ _ _ T i t Hi) as [Hal Hth]. assert (i = ii) as -> by (specialize (Hal (CInsert v)); rewrite Hp in Hal; apply Hal; left).
    apply idle_f in Hpc. assert (Hir : irun ls = Some (v, c_pc t)) by (unfold irun, irun_t; rewrite Hi; cbn; rewrite Hpc, Hp; reflexivity). rewrite Hir in C.
    pose proof (lookup_lt_Some _ _ _ Hi) as Hlt.
    assert (Hev : evs ii H = done (updates (c_log t)) ++ None :: (Some <$> ipendr v (c_pc t))) by (rewrite (t_evs _ _ _ T ii t Hi); unfold runev; rewrite Hpc, Hp; reflexivity).
    destruct (insert_step kf hash keq bc E HP M0 ii ie ii s G F H (xrun ls) t v rest C Hp) as (s' & t' & Hst & G' & F' & H' & d & I' & C' & Hh & Hm & Hn).
    assert (Hd : forall x, d = [x] -> x.1 = CInsert v /\ evs ii H = done (updates (c_log t)) ++ [None]).
    { intros x ->. destruct Hn as [(pc' & -> & -> & Hn)|(r & -> & -> & Hn)].
      - pose proof (ipendr_len v pc') as Hl. rewrite Hn, app_length in Hl. cbn in Hl. assert (He : ipendr (K:=K) v (c_pc t) = []) by (apply nil_length_inv; lia). rewrite Hev, He. split; [|reflexivity].
        apply (ipendr_op v pc'). rewrite Hn. apply elem_of_app. right. left.
      - destruct (ipendr v (c_pc t)) as [|y l] eqn:He; [|exfalso; apply (f_equal length) in Hn; rewrite app_length in Hn; cbn in Hn; lia]. cbn in Hn. injection Hn as ->. rewrite Hev. auto. }
    assert (Hir' : irun (<[ii := t']> ls) = I' /\ xrun (<[ii := t']> ls) = xrun ls /\ thr s' ii t' /\ done (updates (c_log t')) ++ runev t' = evs ii H ++ (Some <$> d) /\ tnext (CInsert v) t t').
    { destruct Hn as [(pc' & -> & -> & Hn)|(r & -> & -> & Hn)].
      - assert (Hpc' : idle pc' = false). { apply idle_f. intros ->. exact (k_I _ _ _ _ _ _ _ _ _ _ _ _ _ _ C'). }
        split; [unfold irun; rewrite list_lookup_insert by exact Hlt; cbn; unfold irun_t; cbn [cgo c_pc c_prog]; rewrite Hpc', Hp; reflexivity|].
        split; [apply (xrun_same xrun_t ls ii t); [exact Hi|unfold xrun_t; cbn [cgo c_pc c_prog]; rewrite Hpc, Hpc', Hp; reflexivity]|].
        split; [split; [exact Hal|cbn [cgo c_prog]; rewrite Hp; exact Logic.I]|].
        split; [|left; eauto]. cbn [cgo c_log]. unfold runev. cbn [cgo c_pc c_prog]. rewrite Hpc', Hp, Hn, Hev, fmap_app, <- app_assoc. reflexivity.
      - split; [unfold irun; rewrite list_lookup_insert by exact Hlt; reflexivity|].
        split; [apply (xrun_same xrun_t ls ii t); [exact Hi|unfold xrun_t; cbn [cfinish c_pc idle]; rewrite Hpc, Hp; reflexivity]|].
        split; [apply thr_finish; apply (thr_mono s); [exact Hm|exact (t_thr _ _ _ T ii t Hi)]|].
        split; [|right; eauto]. rewrite Hev, <- app_assoc. cbn [app]. rewrite <- fmap_app, Hn. cbn [cfinish c_log fmap list_fmap]. unfold runev. cbn [cfinish c_pc idle]. rewrite app_nil_r, updates_app, done_app. reflexivity. }
    destruct Hir' as (R1 & R2 & R3 & R4 & R5).
    exists s', t', H'. split; [exact Hst|]. split.
    - split.
      + exists G', F'. rewrite R1, R2. exact C'.
      + intros j tj Hj. apply list_lookup_insert_Some in Hj as [(-> & <- & _)|[Hne Hj]]; [exact R3|]. apply (thr_mono s); [exact Hm|exact (t_thr _ _ _ T j tj Hj)].
      + intros j tj Hj. rewrite (hstep_evs ii H H' d j Hh). apply list_lookup_insert_Some in Hj as [(-> & <- & _)|[Hne Hj]].
        * rewrite decide_True by reflexivity. symmetry. exact R4.
        * rewrite decide_False by congruence. rewrite app_nil_r. exact (t_evs _ _ _ T j tj Hj).
      + intros e He. rewrite insert_length. destruct (hstep_in _ _ _ _ _ Hh He) as [He'|He']; [exact (t_in _ _ _ T e He')|rewrite He'; exact Hlt].
    - intros l1 Hc. eapply cut_rel; [|exact Hi|exact Hp|exact R5]. eapply hstep_cut; [exact Hc|exact Hh|exact Hi|exact Hp|reflexivity|exact Hd].
  Qed.
  (* a step of the erasing thread *)
  Lemma step_erase s ls H i t k rest : top s ls H -> ls !! i = Some t -> c_prog t = CErase k :: rest -> c_pc t <> UIdle -> nextH s ls H i t.
  Proof using HP.
    intros T Hi Hp Hpc. destruct (t_core _ _ _ T) as (G & F & C). destruct (t_thr _ _ _ T i t Hi) as [Hal Hth]. assert (i = ie) as -> by (specialize (Hal (CErase k)); rewrite Hp in Hal; apply Hal; left).
    apply idle_f in Hpc. assert (Hir : xrun ls = Some (k, c_pc t)) by (unfold xrun, xrun_t; rewrite Hi; cbn; rewrite Hpc, Hp; reflexivity). rewrite Hir in C.
    pose proof (lookup_lt_Some _ _ _ Hi) as Hlt.
    assert (Hev : evs ie H = done (updates (c_log t)) ++ None :: (Some <$> xpendr k (c_pc t))) by (rewrite (t_evs _ _ _ T ie t Hi); unfold runev; rewrite Hpc, Hp; reflexivity).
    destruct (erase_step kf hash keq bc E HP M0 ii ie ie s G F H (irun ls) t k rest C Hp) as (s' & t' & Hst & G' & F' & H' & d & X' & C' & Hh & Hm & Hn).
    assert (Hd : forall x, d = [x] -> x.1 = CErase k /\ evs ie H = done (updates (c_log t)) ++ [None]).
    { intros x ->. destruct Hn as [(pc' & -> & -> & Hn)|(r & -> & -> & Hn)].
      - pose proof (xpendr_len k pc') as Hl. rewrite Hn, app_length in Hl. cbn in Hl. assert (He : xpendr (V:=V) k (c_pc t) = []) by (apply nil_length_inv; lia). rewrite Hev, He. split; [|reflexivity].
        apply (xpendr_op k pc'). rewrite Hn. apply elem_of_app. right. left.
      - destruct (xpendr k (c_pc t)) as [|y l] eqn:He; [|exfalso; apply (f_equal length) in Hn; rewrite app_length in Hn; cbn in Hn; lia]. cbn in Hn. injection Hn as ->. rewrite Hev. auto. }
    assert (Hir' : xrun (<[ie := t']> ls) = X' /\ irun (<[ie := t']> ls) = irun ls /\ thr s' ie t' /\ done (updates (c_log t')) ++ runev t' = evs ie H ++ (Some <$> d) /\ tnext (CErase k) t t').
    { destruct Hn as [(pc' & -> & -> & Hn)|(r & -> & -> & Hn)].
      - assert (Hpc' : idle pc' = false). { apply idle_f. intros ->. exact (k_E _ _ _ _ _ _ _ _ _ _ _ _ _ _ C'). }
        split; [unfold xrun; rewrite list_lookup_insert by exact Hlt; cbn; unfold xrun_t; cbn [cgo c_pc c_prog]; rewrite Hpc', Hp; reflexivity|].
        split; [apply (run_same irun_t ls ie t); [exact Hi|unfold irun_t; cbn [cgo c_pc c_prog]; rewrite Hpc, Hpc', Hp; reflexivity]|].
        split; [split; [exact Hal|cbn [cgo c_prog]; rewrite Hp; exact Logic.I]|].
        split; [|left; eauto]. cbn [cgo c_log]. unfold runev. cbn [cgo c_pc c_prog]. rewrite Hpc', Hp, Hn, Hev, fmap_app, <- app_assoc. reflexivity.
      - split; [unfold xrun; rewrite list_lookup_insert by exact Hlt; reflexivity|].
        split; [apply (run_same irun_t ls ie t); [exact Hi|unfold irun_t; cbn [cfinish c_pc idle]; rewrite Hpc, Hp; reflexivity]|].
        split; [apply thr_finish; apply (thr_mono s); [exact Hm|exact (t_thr _ _ _ T ie t Hi)]|].
        split; [|right; eauto]. rewrite Hev, <- app_assoc. cbn [app]. rewrite <- fmap_app, Hn. cbn [cfinish c_log fmap list_fmap]. unfold runev. cbn [cfinish c_pc idle]. rewrite app_nil_r, updates_app, done_app. reflexivity. }
    destruct Hir' as (R1 & R2 & R3 & R4 & R5).
    exists s', t', H'. split; [exact Hst|]. split.
    - split.
      + exists G', F'. rewrite R1, R2. exact C'.
      + intros j tj Hj. apply list_lookup_insert_Some in Hj as [(-> & <- & _)|[Hne Hj]]; [exact R3|]. apply (thr_mono s); [exact Hm|exact (t_thr _ _ _ T j tj Hj)].
      + intros j tj Hj. rewrite (hstep_evs ie H H' d j Hh). apply list_lookup_insert_Some in Hj as [(-> & <- & _)|[Hne Hj]].
        * rewrite decide_True by reflexivity. symmetry. exact R4.
        * rewrite decide_False by congruence. rewrite app_nil_r. exact (t_evs _ _ _ T j tj Hj).
      + intros e He. rewrite insert_length. destruct (hstep_in _ _ _ _ _ Hh He) as [He'|He']; [exact (t_in _ _ _ T e He')|rewrite He'; exact Hlt].
    - intros l1 Hc. eapply cut_rel; [|exact Hi|exact Hp|exact R5]. eapply hstep_cut; [exact Hc|exact Hh|exact Hi|exact Hp|reflexivity|exact Hd].
  Qed.
  (* a call begins *)
  Lemma traced_begin M H i : traced kf keq E M H -> traced kf keq E M (H ++ [(i, None)]).
  Proof. revert M. induction H as [|[j [[x M']|]] H IH]; intros M; cbn [app traced]; intuition. Qed.
  Lemma lst_begin H i : lst (H ++ [(i, None)]) = lst H.
  Proof. rewrite lst_app. reflexivity. Qed.
  Lemma core_begin_I s G F H v X : core s G F H None X -> (ii = ie -> X = None) -> core s G F (H ++ [(ii, None)]) (Some (v, UFullCheck)) X.
  Proof.
    intros C Hx. split.
    - exact (sh_of C).
    - apply traced_begin. apply C.
    - rewrite lst_begin. apply C.
    - intros He. right. auto.
    - exact Logic.I.
    - pose proof (k_E _ _ _ _ _ _ _ _ _ _ _ _ _ _ C) as HE. destruct X as [[k pc]|]; [|exact Logic.I]. assert (Hne : ie <> ii) by (intros He; discriminate (Hx (eq_sym He))). eapply kE_grow; [exact HE|]. apply grow_same; auto. intros Q. apply since_ext. exact Hne.
  Qed.
  Lemma core_begin_X s G F H I k : core s G F H I None -> (ii = ie -> I = None) -> core s G F (H ++ [(ie, None)]) I (Some (k, FOcc FEr1 (bkt k))).
  Proof using HP.
    intros C Hx. assert (C1 : core s G F (H ++ [(ie, None)]) I None).
    { split.
      - exact (sh_of C).
      - apply traced_begin. apply C.
      - rewrite lst_begin. apply C.
      - auto.
      - pose proof (k_I _ _ _ _ _ _ _ _ _ _ _ _ _ _ C) as HI. destruct I as [[v pc]|]; [|exact Logic.I]. assert (Hne : ii <> ie) by (intros He; discriminate (Hx He)). eapply kI_shrink; [exact HI|]. apply shrink_same; auto. intros Q. apply since_ext. exact Hne.
      - exact Logic.I. }
    split; try apply C1.
    - intros He. left. auto.
    - exact (start_kE kf hash keq bc E HP M0 ii ie s G F _ I None k C1 s).
  Qed.
  Lemma step_begin s ls H i t op rest : top s ls H -> ls !! i = Some t -> c_prog t = op :: rest -> c_pc t = UIdle -> nextH s ls H i t.
  Proof using HP.
    intros T Hi Hp Hpc. destruct (t_core _ _ _ T) as (G & F & C). destruct (t_thr _ _ _ T i t Hi) as [Hal Hth]. assert (Hop : allowed i op) by (apply Hal; rewrite Hp; left). pose proof (lookup_lt_Some _ _ _ Hi) as Hlt.
    assert (Hev : evs i H = done (updates (c_log t))) by (rewrite (t_evs _ _ _ T i t Hi); unfold runev; rewrite Hpc; apply app_nil_r).
    set (pc' := match op with CInsert _ => UFullCheck | CErase k => FOcc FEr1 (bkt k) | CFind k => FOcc FUser (bkt k) end). set (t' := cgo t pc').
    assert (Hst : step i s t = Some (s, t')). { unfold estep. rewrite Hpc. unfold ustep. rewrite Hp, Hpc. rewrite (S0 mx_bucket) || rewrite (mx_bucket hash keq bc E HP). destruct op; reflexivity. }
    set (H' := if is_update op then H ++ [(i, None)] else H).
    assert (HC : exists G F, core s G F H' (irun (<[i := t']> ls)) (xrun (<[i := t']> ls))).
    { exists G, F. destruct op as [v|k|k]; cbn [allowed] in Hop; cbn [is_update] in H'; unfold H'.
      - subst i. assert (Hx : xrun (<[ii := t']> ls) = xrun ls) by (apply (xrun_same xrun_t ls ii t); [exact Hi|unfold xrun_t, t'; cbn [cgo c_pc c_prog]; rewrite Hpc, Hp; reflexivity]).
        assert (E1 : irun ls = None) by (unfold irun; rewrite Hi; cbn; unfold irun_t; rewrite Hpc; reflexivity). assert (E2 : irun (<[ii := t']> ls) = Some (v, UFullCheck)) by (unfold irun; rewrite list_lookup_insert by exact Hlt; cbn; unfold irun_t; cbn [t' cgo c_pc c_prog]; rewrite Hp; reflexivity).
        rewrite Hx, E2. rewrite E1 in C. apply core_begin_I; [exact C|]. intros He. unfold xrun. rewrite <- He, Hi. cbn. unfold xrun_t. rewrite Hpc. reflexivity.
      - subst i. assert (Hx : irun (<[ie := t']> ls) = irun ls) by (apply (run_same irun_t ls ie t); [exact Hi|unfold irun_t, t'; cbn [cgo c_pc c_prog]; rewrite Hpc, Hp; reflexivity]).
        assert (E1 : xrun ls = None) by (unfold xrun; rewrite Hi; cbn; unfold xrun_t; rewrite Hpc; reflexivity). assert (E2 : xrun (<[ie := t']> ls) = Some (k, FOcc FEr1 (bkt k))) by (unfold xrun; rewrite list_lookup_insert by exact Hlt; cbn; unfold xrun_t; cbn [t' cgo c_pc c_prog]; rewrite Hp; reflexivity).
        rewrite Hx, E2. rewrite E1 in C. apply core_begin_X; [exact C|]. intros He. unfold irun. rewrite He, Hi. cbn. unfold irun_t. rewrite Hpc. reflexivity.
      - assert (Hx : irun (<[i := t']> ls) = irun ls) by (apply (run_same irun_t ls i t); [exact Hi|unfold irun_t, t'; cbn [cgo c_pc c_prog]; rewrite Hpc, Hp; reflexivity]).
        assert (Hx2 : xrun (<[i := t']> ls) = xrun ls) by (apply (xrun_same xrun_t ls i t); [exact Hi|unfold xrun_t, t'; cbn [cgo c_pc c_prog]; rewrite Hpc, Hp; reflexivity]). rewrite Hx, Hx2. exact C. }
    exists s, t', H'. split; [exact Hst|]. split; [split|].
    - exact HC.
    - intros j tj Hj. apply list_lookup_insert_Some in Hj as [(-> & <- & _)|[Hne Hj]]; [|exact (t_thr _ _ _ T j tj Hj)]. split; [exact Hal|]. cbn [t' cgo c_prog]. rewrite Hp. destruct op as [v|k|k]; auto. unfold finding, t', pc'. cbn [cgo c_pc]. pose proof (mx_bkt hash keq bc E HP k). lia.
    - intros j tj Hj. apply list_lookup_insert_Some in Hj as [(-> & <- & _)|[Hne Hj]].
      + cbn [t' cgo c_log]. unfold runev, H'. cbn [t' cgo c_pc c_prog]. rewrite Hp. destruct op as [v|k|k]; cbn [is_update pc' idle ipendr xpendr]; rewrite ?evs_app, ?evs_same, Hev, ?app_nil_r; reflexivity.
      + unfold H'. destruct (is_update op); [rewrite evs_app, evs_other, app_nil_r by congruence|]; exact (t_evs _ _ _ T j tj Hj).
    - intros e He. rewrite insert_length. unfold H' in He. destruct (is_update op); [|exact (t_in _ _ _ T e He)]. apply elem_of_app in He as [He|He]; [exact (t_in _ _ _ T e He)|]. apply elem_of_list_singleton in He as ->. exact Hlt.
    - intros l1 Hc. eapply cut_rel; [|exact Hi|exact Hp|left; exists pc'; reflexivity]. unfold H'. destruct (is_update op); [apply cut_snoc|]; exact Hc.
  Qed.
  (* a lookup goes on *)
  Lemma step_find s ls H i t k rest : top s ls H -> ls !! i = Some t -> c_prog t = CFind k :: rest -> c_pc t <> UIdle -> nextH s ls H i t.
  Proof using HP.
    intros T Hi Hp Hpc. destruct (t_core _ _ _ T) as (G & F & C). destruct (t_thr _ _ _ T i t Hi) as [Hal Hth]. rewrite Hp in Hth. pose proof (lookup_lt_Some _ _ _ Hi) as Hlt. pose proof (sh_of C) as J.
    assert (Hgo : exists t', step i s t = Some (s, t') /\ ((exists pc', t' = cgo t pc' /\ pc' <> UIdle /\ finding s t') \/ exists r, t' = cfinish t (CFind k) r)).
    { assert (Hb : bucket_of hash bc (op_key kf (CFind k)) = Some (bkt k)) by apply (mx_bucket hash keq bc E HP). unfold finding in Hth. unfold estep, ustep. rewrite Hp, Hb. destruct (c_pc t); try contradiction; try congruence; destruct c; try contradiction; rename i0 into j.
      - destruct (S0 sf_occ_at _ _ _ _ _ _ _ _ J j Hth) as [o Ho]. rewrite Ho. eexists. split; [reflexivity|]. left. destruct o; eexists; (split; [reflexivity|]); split; try discriminate; cbn [cgo c_pc]; [|exact Hth]. exact (sh_val _ _ _ _ _ _ _ _ _ _ _ _ _ J j Ho).
      - destruct Hth as [w Hw]. rewrite Hw. eexists. split; [reflexivity|]. cbn [op_key]. destruct (keq (kf w) k); [right; eexists; reflexivity|]. left. eexists. split; [reflexivity|]. split; [discriminate|]. cbn [cgo c_pc finding]. apply lookup_lt_Some in Hw. rewrite (sh_lv _ _ _ _ _ _ _ _ _ _ _ _ _ J) in Hw. exact Hw.
      - destruct (S0 sf_off_at _ _ _ _ _ _ _ _ J j Hth) as [o Ho]. rewrite Ho. eexists. split; [reflexivity|]. destruct (o =? 0); [right; eexists; reflexivity|]. left. eexists. split; [reflexivity|]. split; [discriminate|]. exact Hth.
      - destruct (S0 sf_off_at _ _ _ _ _ _ _ _ J j Hth) as [o Ho]. rewrite Ho. pose proof (sh_off _ _ _ _ _ _ _ _ _ _ _ _ _ J j o Ho) as Hr. unfold next_entry. rewrite (proj2 (Z.leb_le _ _)) by lia. eexists. split; [reflexivity|]. left. eexists. split; [reflexivity|]. split; [discriminate|]. cbn [cgo c_pc finding]. lia. }
    destruct Hgo as (t' & Hst & Hn). assert (Hn' : tnext (CFind k) t t') by (destruct Hn as [(pc' & -> & _)|[r ->]]; [left|right]; eauto).
    apply idle_f in Hpc. assert (HR : irun_t t' = irun_t t /\ xrun_t t' = xrun_t t /\ thr s i t' /\ done (updates (c_log t')) ++ runev t' = done (updates (c_log t)) ++ runev t).
    { unfold irun_t, xrun_t, runev. rewrite Hpc, Hp. destruct Hn as [(pc' & -> & Hpc' & Hf)|[r ->]].
      - apply idle_f in Hpc'. cbn [cgo c_pc c_prog c_log]. rewrite Hpc', Hp. split; [reflexivity|]. split; [reflexivity|]. split; [|reflexivity]. split; [exact Hal|]. cbn [cgo c_prog]. rewrite Hp. exact Hf.
      - cbn [cfinish c_pc c_log idle]. split; [reflexivity|]. split; [reflexivity|]. split; [apply thr_finish; exact (t_thr _ _ _ T i t Hi)|]. rewrite updates_app, done_app. cbn [updates]. unfold updates at 2. rewrite filter_cons_False by discriminate. rewrite filter_nil, !app_nil_r. reflexivity. }
    destruct HR as (R1 & R2 & R3 & R4). exists s, t', H. split; [exact Hst|]. split; [split|].
    - exists G, F. unfold irun, xrun. rewrite (run_same irun_t ls i t t' Hi R1), (xrun_same xrun_t ls i t t' Hi R2). exact C.
    - intros j tj Hj. apply list_lookup_insert_Some in Hj as [(-> & <- & _)|[Hne Hj]]; [exact R3|exact (t_thr _ _ _ T j tj Hj)].
    - intros j tj Hj. apply list_lookup_insert_Some in Hj as [(-> & <- & _)|[Hne Hj]]; [rewrite R4|]; apply (t_evs _ _ _ T); assumption.
    - intros e He. rewrite insert_length. exact (t_in _ _ _ T e He).
    - intros l1 Hc. eapply cut_rel; eauto.
  Qed.
  Lemma top_next s ls H i t : top s ls H -> ls !! i = Some t -> c_prog t <> [] -> nextH s ls H i t.
  Proof using HP.
    intros T Hi Hp. destruct (c_prog t) as [|op rest] eqn:Ep; [contradiction|]. destruct (idle (c_pc t)) eqn:Ei.
    - apply idle_t in Ei. eapply step_begin; eauto.
    - apply idle_f in Ei. destruct op; [eapply step_insert|eapply step_erase|eapply step_find]; eauto.
  Qed.
  Lemma estep_prog i s t : c_prog t = [] -> step i s t = None.
  Proof. intros Hp. unfold estep, ustep. rewrite Hp. destruct (c_pc t); reflexivity. Qed.
  Lemma top_visited s0 l0 past s ls : top s0 l0 [] -> visited step (s0, l0) past (s, ls) -> exists H, top s ls H /\ forall c1, c1 ∈ past -> cut c1.2 ls H.
  Proof using HP.
    intros T0 HV. remember (s0, l0) as c0 eqn:E0. remember (s, ls) as c eqn:Ec. revert s ls Ec. induction HV as [|past c c' HV IH Hs]; intros s ls Ec.
    - subst. injection Ec as -> ->. exists []. split; [exact T0|]. intros c1 Hc. inversion Hc.
    - subst. destruct c as [s1 l1]. destruct (IH s1 l1 eq_refl) as (H & T & Hcut). inversion Hs as [s2 ls2 i t s3 t3 Hi Hst]; subst.
      assert (Hp : c_prog t <> []) by (intros Hp; rewrite (estep_prog i s1 t Hp) in Hst; discriminate).
      destruct (top_next s1 l1 H i t T Hi Hp) as (s' & t' & H' & Hst' & T' & Hc'). rewrite Hst in Hst'. injection Hst' as <- <-. exists H'. split; [exact T'|].
      intros c1 Hc1. apply elem_of_cons in Hc1 as [-> |Hc1]; [apply Hc'; apply (cut_now s1); exact T|apply Hc'; apply Hcut; exact Hc1].
  Qed.
  (** *** what the events say *)
  Definition told H : list (nat * call) := omap (fun e : ev => (fun x => (e.1, x.1)) <$> e.2) H.
  Lemma told_app H1 H2 : told (H1 ++ H2) = told H1 ++ told H2.
  Proof. apply omap_app. Qed.
  Lemma told_calls i H : calls_of i (told H) = omap id (evs i H).
  Proof.
    unfold calls_of, told, evs, own. induction H as [|[j o] H IH]; [reflexivity|]. cbn [omap list_omap snd fst]. destruct (decide (j = i)) as [-> |Hne].
    - rewrite (filter_cons_True _ (i, o)) by reflexivity. destruct o as [[x M]|]; cbn [fmap option_fmap option_map fst snd list_fmap omap list_omap id]; [|exact IH]. rewrite filter_cons_True by reflexivity. cbn. f_equal. exact IH.
    - rewrite (filter_cons_False _ (j, o)) by (cbn; exact Hne). destruct o as [[x M]|]; cbn [fmap option_fmap option_map fst snd list_fmap omap list_omap id]; [|exact IH]. rewrite filter_cons_False by (cbn; exact Hne). exact IH.
  Qed.
  Lemma omap_done l : omap id (done l) = l.
  Proof. induction l as [|x l IH]; [reflexivity|]. cbn. f_equal. exact IH. Qed.
  Lemma told_explained M H : traced kf keq E M H -> exists M', explained kf keq E M (told H) M' /\ M' = foldl (fun M (e : ev) => match e.2 with Some x => x.2 | None => M end) M H.
  Proof.
    revert M. induction H as [|[j [[x M1]|]] H IH]; intros M HT.
    - exists M. split; [cbn; reflexivity|reflexivity].
    - destruct HT as [HT1 HT2]. destruct (IH M1 HT2) as (M' & H1 & H2). exists M'. split; [|exact H2]. exists M1. auto.
    - destruct (IH M HT) as (M' & H1 & H2). exists M'. auto.
  Qed.
  Lemma cut_accounts l1 ls H : cut l1 ls H -> (forall e, e ∈ H -> (e.1 < length ls)%nat) -> exists ha hb, told H = ha ++ hb /\ accounts_for l1 ha.
  Proof.
    intros (Hl & Ha & Hb & -> & Hc) Hin. exists (told Ha), (told Hb). split; [apply told_app|]. split.
    - intros [j x] Hx. unfold told in Hx. apply elem_of_list_omap in Hx as ([j' o] & He & Hx). cbn in Hx. destruct o as [[y M]|]; [|discriminate]. injection Hx as <- <-. cbn. rewrite Hl. apply (Hin (j', Some (y, M))). apply elem_of_app. auto.
    - intros i t1 Hi. destruct (Hc i t1 Hi) as (t & l & tail & _ & _ & _ & He & Ht). rewrite told_calls, He, omap_app, omap_done. destruct Ht as [-> |(op & rest & P1 & P2 & P3 & [-> |[r ->]])]; [left; apply app_nil_r|left; apply app_nil_r|right; exists op, rest, r; auto].
  Qed.
  (** *** the values that can be reached *)
  Lemma reached s G F D L m a b c p : shape s G F D L m a b -> (c < bc)%nat -> rtc (leads_to s) c p <-> p ∈ lst_of G c.
  Proof using HP.
    intros J Hc. pose proof (sh_link _ _ _ _ _ _ _ _ _ _ _ _ _ J c Hc) as HL. unfold lst_of. revert HL. generalize (gpos (gb G c)) as P. clear Hc. intros P. revert c. induction P as [|x P IH]; intros c HL; cbn [linked] in HL.
    - split; [|intros Hp; apply elem_of_list_singleton in Hp as ->; apply rtc_refl]. intros Hr. inversion Hr as [|? y ? Hs _]; subst; [left|]. destruct Hs as (o & H1 & H2 & _). congruence.
    - destruct HL as (H1 & H2 & H3). rewrite elem_of_cons, <- (IH x H3). split.
      + intros Hr. inversion Hr as [|? y ? Hs Hr2]; subst; [auto|]. right. destruct Hs as (o & Q1 & Q2 & Q3). rewrite H2 in Q1. injection Q1 as <-. assert (y = x) as -> by lia. exact Hr2.
      + intros [-> |Hr]; [apply rtc_refl|]. eapply rtc_l; [|exact Hr]. exists (Z.of_nat x - Z.of_nat c). split; [exact H2|]. split; [lia|]. lia.
  Qed.
  Lemma in_table_iff s G F D L m a b v : shape s G F D L m a b -> in_table kf hash bc s v <-> v ∈ G ≫= gvals.
  Proof using HP.
    intros J. rewrite (S0 sf_vals _ _ _ _ _ _ _ _ J). unfold in_table. rewrite (mx_bucket hash keq bc E HP). assert (Hc : (bkt (kf v) < bc)%nat) by apply (mx_bkt hash keq bc E HP). split.
    - intros (b0 & p & Eb & Hr & He). injection Eb as <-. apply (reached _ _ _ _ _ _ _ _ _ _ J Hc) in Hr. destruct He as [He1 He2]. destruct (node_occ kf hash keq bc E HP _ _ _ _ _ _ _ _ _ _ J Hc Hr He2) as [w Hw]. destruct (sh_ent _ _ _ _ _ _ _ _ _ _ _ _ _ J _ p w Hc Hw) as [Hw1 _]. rewrite He1 in Hw1. injection Hw1 as <-. eauto.
    - intros (c & x & Hc' & Hx). pose proof (sh_bkt _ _ _ _ _ _ _ _ _ _ _ _ _ J c x v Hc' Hx) as <-. exists (bkt (kf v)), x. split; [reflexivity|]. split; [apply (reached _ _ _ _ _ _ _ _ _ _ J Hc); eapply ents_pos; exact Hx|]. exact (sh_ent _ _ _ _ _ _ _ _ _ _ _ _ _ J _ x v Hc Hx).
  Qed.
  Lemma top_explained s ls H : top s ls H -> exists M, explained kf keq E M0 (told H) M /\ keys_distinct kf keq M /\ forall v, v ∈ M <-> in_table kf hash bc s v.
  Proof using HP.
    intros T. destruct (t_core _ _ _ T) as (G & F & C). destruct (told_explained M0 H (k_tr _ _ _ _ _ _ _ _ _ _ _ _ _ _ C)) as (M' & H1 & H2). exists M'. split; [exact H1|]. assert (M' = G ≫= gvals) as -> by (rewrite H2; exact (k_lst _ _ _ _ _ _ _ _ _ _ _ _ _ _ C)).
    split; [exact (S0 sf_kd _ _ _ _ _ _ _ _ (sh_of C))|]. intros v. symmetry. exact (in_table_iff _ _ _ _ _ _ _ _ v (sh_of C)).
  Qed.

  (** *** start and rest *)
  Lemma start_shape (u : utab V) G st : urep kf hash keq true bc E (replicate n false) u G st -> shape (shared_of u) G st [] [] 0 (fresh_call []) (fresh_call []).
  Proof using HP ie.
    intros R. pose proof HP as ((K1 & K2 & K3) & Hh & (Z1 & Z2 & Z3)).
    pose proof (start_cinv kf hash keq bc E K1 K2 K3 Hh Z1 Z2 Z3 true u G st [[]; []] R ltac:(intros q op Hq Hop; rewrite !elem_of_cons in Hq; destruct Hq as [-> |[-> |Hq]]; [inversion Hop|inversion Hop|inversion Hq])) as I.
    assert (Hocc : forall x, c_occ (shared_of u) !! x = is_some <$> c_values (shared_of u) !! x) by (intros x; apply (ur_occ _ _ _ _ _ _ _ _ _ _ R)).
    assert (Hg : forall c, (c < bc)%nat -> G !! c = Some (gb G c)) by (intros c Hc; apply gb_some; rewrite (ur_lg _ _ _ _ _ _ _ _ _ _ R); exact Hc).
    split.
    - apply I.
    - apply I.
    - apply I.
    - apply I.
    - apply I.
    - apply (ur_perm _ _ _ _ _ _ _ _ _ _ R).
    - intros c Hc. exact (proj1 (ci_head _ _ _ _ _ _ _ _ _ _ I c _ (Hg c Hc))).
    - intros c x w Hc Hx. unfold ents, ents_of in Hx. apply elem_of_app in Hx as [Hx|Hx].
      + destruct (gb G c).1 as [v|] eqn:Ev; [|inversion Hx]. apply elem_of_list_singleton in Hx. injection Hx as -> ->. destruct (ci_head _ _ _ _ _ _ _ _ _ _ I c _ (Hg c Hc)) as [H1 H2]. rewrite Ev in H1. split; [exact (H2 v Ev)|exact H1].
      + exact (ci_chain _ _ _ _ _ _ _ _ _ _ I c _ x w (Hg c Hc) Hx).
    - intros c Hc. exact (ci_link _ _ _ _ _ _ _ _ _ _ I c _ (Hg c Hc)).
    - exact (ci_free _ _ _ _ _ _ _ _ _ _ I).
    - intros x Hx. rewrite Hocc in Hx. destruct (c_values (shared_of u) !! x) as [[w|]|]; try discriminate. eauto.
    - exact (ci_off _ _ _ _ _ _ _ _ _ _ I).
    - intros x. split; [|intros Hx; inversion Hx]. cbn [shared_of c_locks]. rewrite (ur_lk _ _ _ _ _ _ _ _ _ _ R). unfold lk. destruct (decide (x < n)%nat); [rewrite lookup_replicate_2 by assumption|rewrite lookup_ge_None_2 by (rewrite replicate_length; lia)]; discriminate.
    - constructor.
    - rewrite Z.add_0_r. exact (ur_count _ _ _ _ _ _ _ _ _ _ R).
    - intros c x w Hc Hx. apply (ur_bkt _ _ _ _ _ _ _ _ _ _ R c _ w (Hg c Hc)). eapply ents_val. exact Hx.
    - intros c Hc. exact (ur_kd _ _ _ _ _ _ _ _ _ _ R c _ (Hg c Hc)).
    - apply pair_start; [exact (ci_vec _ _ _ _ _ _ _ _ _ _ I)|]. cbn [shared_of c_ex]. rewrite (vec_start E _ _ (ur_ex _ _ _ _ _ _ _ _ _ _ R)). cbn. rewrite fmap_length. reflexivity.
    - cbn [shared_of c_ex]. rewrite (vec_start E _ _ (ur_ex _ _ _ _ _ _ _ _ _ _ R)). cbn. lia.
  Qed.
  Lemma start_top (u : utab V) G st progs : urep kf hash keq true bc E (replicate n false) u G st -> M0 = G ≫= gvals -> one_inserts_one_erases ii ie progs -> top (shared_of u) (c_start progs) [].
  Proof using HP.
    intros R HM Hp. assert (Hnone : irun (c_start progs) = None /\ xrun (c_start progs) = None).
    { unfold irun, xrun. split; [destruct (c_start progs !! ii) as [t|] eqn:Et|destruct (c_start progs !! ie) as [t|] eqn:Et]; cbn; try reflexivity; apply elem_of_list_lookup_2, c_start_in in Et as [Hpc _]; unfold irun_t, xrun_t; rewrite Hpc; reflexivity. }
    destruct Hnone as [N1 N2]. split.
    - exists G, st. rewrite N1, N2. split; auto.
      + exact (start_shape u G st R).
      + exact Logic.I.
    - intros i t Hi. unfold c_start in Hi. rewrite list_lookup_fmap in Hi. destruct (progs !! i) as [prog|] eqn:Ep; [|discriminate]. injection Hi as <-. split; cbn.
      + intros op Hop. specialize (Hp i prog op Ep Hop). exact Hp.
      + destruct prog as [|[]]; auto.
    - intros i t Hi. apply elem_of_list_lookup_2, c_start_in in Hi as (H1 & H2 & _). unfold runev. rewrite H1, H2. reflexivity.
    - intros e He. inversion He.
  Qed.
  Lemma quiet_shape s ls H : top s ls H -> c_quiescent ls -> exists G F, core s G F H None None.
  Proof.
    intros T Hq. destruct (t_core _ _ _ T) as (G & F & C). exists G, F.
    assert (E1 : irun ls = None) by (unfold irun; destruct (ls !! ii) as [t|] eqn:Et; [|reflexivity]; cbn; unfold irun_t; rewrite (Hq t (elem_of_list_lookup_2 _ _ _ Et)); reflexivity).
    assert (E2 : xrun ls = None) by (unfold xrun; destruct (ls !! ie) as [t|] eqn:Et; [|reflexivity]; cbn; unfold xrun_t; rewrite (Hq t (elem_of_list_lookup_2 _ _ _ Et)); reflexivity).
    rewrite E1, E2 in C. exact C.
  Qed.
  Lemma quiet_content s G F H : core s G F H None None -> content kf keq s (G ≫= gvals).
  Proof using HP.
    intros C. pose proof (sh_of C) as J. split; [exact (S0 sf_kd _ _ _ _ _ _ _ _ J)|]. intros v. rewrite (S0 sf_vals _ _ _ _ _ _ _ _ J). split.
    - intros (c & x & Hc & Hx). exists x. exact (sh_ent _ _ _ _ _ _ _ _ _ _ _ _ _ J c x v Hc Hx).
    - intros (p & Hv & Ho). pose proof (lookup_lt_Some _ _ _ Ho) as Hlt. rewrite (sh_lo _ _ _ _ _ _ _ _ _ _ _ _ _ J) in Hlt.
      assert (HC : exists c w, (c < bc)%nat /\ (p, w) ∈ ents G c).
      { destruct (decide (p < bc)%nat) as [Hp|Hp].
        - destruct (node_occ kf hash keq bc E HP _ _ _ _ _ _ _ _ p p J Hp ltac:(left) Ho) as [w Hw]. eauto.
        - assert (Hin : p ∈ (G ≫= gpos) ++ [] ++ F) by (pose proof (sh_perm _ _ _ _ _ _ _ _ _ _ _ _ _ J) as HPm; cbn [ihd xhd app] in HPm; cbn [app]; rewrite HPm; apply elem_of_seq; lia).
          cbn [app] in Hin. apply elem_of_app in Hin as [Hin|Hin]; [|rewrite (sh_free _ _ _ _ _ _ _ _ _ _ _ _ _ J p Hin) in Ho; discriminate].
          apply elem_of_list_bind in Hin as (g & Hg & Hgi). apply elem_of_list_lookup in Hgi as [c Hc]. pose proof (lookup_lt_Some _ _ _ Hc) as Hcl. rewrite (sh_lg _ _ _ _ _ _ _ _ _ _ _ _ _ J) in Hcl. pose proof (S0 sf_gb _ _ _ _ _ _ _ _ J c Hcl) as Hg2. rewrite Hc in Hg2. injection Hg2 as ->.
          destruct (ents_excess G c p Hg) as [w Hw]. eauto. }
      destruct HC as (c & w & Hc & Hw). exists c, p. split; [exact Hc|]. destruct (sh_ent _ _ _ _ _ _ _ _ _ _ _ _ _ J c p w Hc Hw) as [Hw2 _]. rewrite Hv in Hw2. injection Hw2 as ->. exact Hw.
  Qed.
  Lemma quiet_rep s G F H (indices : list Z) : core s G F H None None -> length indices = n -> exists st, urep kf hash keq true bc E (replicate n false) (utab_of bc indices (ended s)) G st.
  Proof using HP.
    intros C Hn. pose proof HP as ((K1 & K2 & K3) & Hh & (Z1 & Z2 & Z3)). pose proof (sh_of C) as J.
    set (it := idle_thread : cthread K V).
    assert (Hin : forall b g, G !! b = Some g -> (b < bc)%nat /\ g = gb G b). { intros b g Hg. pose proof (lookup_lt_Some _ _ _ Hg) as Hlt. rewrite (sh_lg _ _ _ _ _ _ _ _ _ _ _ _ _ J) in Hlt. split; [exact Hlt|]. pose proof (S0 sf_gb _ _ _ _ _ _ _ _ J b Hlt) as Hg2. congruence. }
    assert (Hend : forall x w, c_values s !! x = Some (Some w) -> c_occ s !! x = Some true -> c_values (ended s) !! x = Some (Some w)). { intros x w Hx Ho. rewrite (ended_lookup s x _ Hx). apply lk_true in Ho. rewrite Ho. reflexivity. }
    assert (I : cinv (K:=K) kf hash keq bc E (G ≫= gvals) (ended s) [it; it] G F).
    { assert (HD : forall b g v, G !! b = Some g -> v ∈ gvals g -> exists x, (x, v) ∈ ents G b). { intros b g v Hg Hv. destruct (Hin b g Hg) as [_ ->]. rewrite <- (ents_vals b) in Hv. apply elem_of_list_fmap in Hv as ([x w] & -> & Hx). exists x. exact Hx. }
      split; cbn [ended c_values c_off c_occ c_locks c_count c_ex].
      - rewrite imap_length. apply J.
      - apply J.
      - apply J.
      - apply J.
      - apply J.
      - exact (sh_perm _ _ _ _ _ _ _ _ _ _ _ _ _ J).
      - intros b g Hg. destruct (Hin b g Hg) as [Hb ->]. split; [exact (sh_head _ _ _ _ _ _ _ _ _ _ _ _ _ J b Hb)|]. intros v Hv. destruct (sh_ent _ _ _ _ _ _ _ _ _ _ _ _ _ J b b v Hb (ents_head G b v Hv)) as [E1 E2]. exact (Hend b v E1 E2).
      - intros b g Hg. destruct (Hin b g Hg) as [Hb ->]. exact (sh_link _ _ _ _ _ _ _ _ _ _ _ _ _ J b Hb).
      - intros b g p v Hg Hp. destruct (Hin b g Hg) as [Hb ->]. destruct (sh_ent _ _ _ _ _ _ _ _ _ _ _ _ _ J b p v Hb) as [E1 E2]; [apply elem_of_app; right; exact Hp|]. split; [exact (Hend p v E1 E2)|exact E2].
      - apply J.
      - apply J.
      - intros p Hp. change (imap _ _) with (c_values (ended s)). destruct (S0 sf_val_at _ _ _ _ _ _ _ _ J p Hp) as [o Ho]. unfold lkd. rewrite (ended_lookup s p o Ho). cbn [sumZ it]. change (lvc kf hash bc p (idle_thread : cthread K V)) with 0.
        destruct (lk (c_occ s) p) eqn:El; [|reflexivity]. apply lk_true in El. destruct (sh_val _ _ _ _ _ _ _ _ _ _ _ _ _ J p El) as [w Hw]. rewrite Ho in Hw. injection Hw as ->. reflexivity.
      - intros p Hp. cbn [sumZ it]. change (holds_lock kf hash bc p (idle_thread : cthread K V)) with 0. destruct (lk (c_locks s) p) eqn:El; [|reflexivity]. apply (sh_lock _ _ _ _ _ _ _ _ _ _ _ _ _ J) in El. inversion El.
      - exact (sh_count _ _ _ _ _ _ _ _ _ _ _ _ _ J).
      - intros b g v Hg Hv. destruct (HD b g v Hg Hv) as [x Hx]. exact (sh_bkt _ _ _ _ _ _ _ _ _ _ _ _ _ J b x v (proj1 (Hin b g Hg)) Hx).
      - intros b g Hg. destruct (Hin b g Hg) as [Hb ->]. exact (sh_kd _ _ _ _ _ _ _ _ _ _ _ _ _ J b Hb).
      - intros t Ht. assert (t = it) as -> by (rewrite !elem_of_cons in Ht; destruct Ht as [-> |[-> |Ht]]; [reflexivity|reflexivity|inversion Ht]). split; [split; [intros op Hop; inversion Hop|reflexivity]|exact Logic.I].
      - exact (p_inv _ _ _ _ _ (sh_vec _ _ _ _ _ _ _ _ _ _ _ _ _ J)).
      - rewrite app_nil_r. reflexivity.
      - intros t p v Ht Hp. rewrite !elem_of_cons in Ht; destruct Ht as [-> |[-> |Ht]]; [inversion Hp|inversion Hp|inversion Ht]. }
    refine (quiet_urep kf hash keq bc E K1 K2 K3 Hh Z1 Z2 Z3 _ (ended s) [it; it] G F indices I _ _ Hn).
    - intros t Ht. rewrite !elem_of_cons in Ht; destruct Ht as [-> |[-> |Ht]]; [reflexivity|reflexivity|inversion Ht].
    - cbn [ended c_ex]. split; [apply J|]. exact (proj1 (core_room kf hash keq bc E HP M0 ii ie s G F H None None C)).
  Qed.
  Lemma cut_all s ls H : top s ls H -> accounts_for ls (told H).
  Proof.
    intros T. split.
    - intros [j x] Hx. unfold told in Hx. apply elem_of_list_omap in Hx as ([j' o] & He & Hx). cbn in Hx. destruct o as [[y M]|]; [|discriminate]. injection Hx as <- <-. exact (t_in _ _ _ T (j', Some (y, M)) He).
    - intros i t Hi. rewrite told_calls, (t_evs _ _ _ T i t Hi), omap_app, omap_done. destruct (runev_shape t) as [-> |(op & rest & P1 & P2 & P3 & [-> |[r ->]])]; [left; apply app_nil_r|left; apply app_nil_r|right; exists op, rest, r; auto].
  Qed.
  Lemma quiet_explained s G F H : core s G F H None None -> explained kf keq E M0 (told H) (G ≫= gvals) /\ content kf keq s (G ≫= gvals) /\ c_count s = Z.of_nat (length (G ≫= gvals)).
  Proof using HP.
    intros C. destruct (told_explained M0 H (k_tr _ _ _ _ _ _ _ _ _ _ _ _ _ _ C)) as (M' & H1 & H2). assert (M' = G ≫= gvals) as -> by (rewrite H2; exact (k_lst _ _ _ _ _ _ _ _ _ _ _ _ _ _ C)).
    split; [exact H1|]. split; [exact (quiet_content s G F H C)|]. pose proof (sh_count _ _ _ _ _ _ _ _ _ _ _ _ _ (sh_of C)) as Hc. cbn [ipd xpd] in Hc. lia.
  Qed.
End top.

Lemma holds_perm {K V} (kf : V -> K) keq M M' k : M ≡ₚ M' -> holds kf keq M k -> holds kf keq M' k.
Proof. intros HM (v & Hv & Hk). exists v. rewrite <- HM. auto. Qed.
Lemma explained_perm {K V} (kf : V -> K) keq E (M M' R : list V) h : M ≡ₚ M' -> explained kf keq E M h R -> explained kf keq E M' h R.
Proof.
  intros HM. destruct h as [|[i [op r]] h]; cbn [explained]; [intros ->; exact HM|]. intros (M1 & H1 & H2). exists M1. split; [|exact H2].
  assert (Hn : forall k, ~ holds kf keq M k -> ~ holds kf keq M' k) by (intros k Hk Hk'; apply Hk; eapply holds_perm; [symmetry; exact HM|exact Hk']).
  destruct op as [v|k|k], r as [p| |[]|o]; cbn [call_explained] in *; try contradiction.
  - destruct H1 as [H1 H3]. split; [auto|]. rewrite H3, HM. reflexivity.
  - destruct H1 as [H1 H3]. split; [|rewrite H3; exact HM]. destruct H1 as [H1|H1]; [left; eapply holds_perm; eauto|right; rewrite <- HM; exact H1].
  - destruct H1 as (v & H1 & H3). exists v. split; [exact H1|]. rewrite <- HM. exact H3.
  - destruct H1 as [H1 H3]. split; [auto|]. rewrite H3. exact HM.
Qed.
Lemma reach_visited {K V} step (c0 c : cshared V * list (cthread K V)) : Conc.reach step c0 c <-> exists past, visited step c0 past c.
Proof.
  split.
  - intros R. pose (P := fun c : cshared V * list (cthread K V) => exists past, visited step c0 past c). refine (rtc_ind_r (R:=cstep step) P c0 _ _ c R).
    + exists []. constructor.
    + intros c1 c2 _ Hs [past HV]. exists (c1 :: past). econstructor; eauto.
  - intros [past HV]. induction HV as [|past c c' _ IH Hs]; [apply rtc_refl|]. eapply rtc_r; eauto.
Qed.
