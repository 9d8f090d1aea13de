(** Kernels in which any number of threads insert, erase and look keys up: every step keeps the invariant (C79). *)
From Verif Require Import Base Conc SlotModel SlotSpec SlotProofs VectorModel VectorProofs VectorConcProofs UnorderedModel UnorderedSpec UnorderedProofs UConcModel UConcSpec UConcProofs UConcEnd UEraseModel UEraseProofs UMixVec UMixShape UOneVec UOneDefs UOneUpd UOneStep UAnyVec UAnyDefs.

Section step.
  Context {K V : Type} (kf : V -> K) (hash : K -> Z) (keq : K -> K -> bool) (bc E : nat).
  Hypothesis HP : key_equality keq /\ hash_respects keq hash /\ sizes_ok bc E.
  Context (M0 : list V).
  Notation n := (bc + E)%nat.
  Notation bkt := (bkt hash bc).
  Notation heldt := (heldt kf hash bc).
  Notation stored := (stored bc E).
  Notation ainv := (ainv kf hash keq bc E M0).
  Notation akn := (akn kf hash keq bc).
  Notation athr := (athr kf hash keq bc).
  Notation aown := (aown kf hash bc).
  Implicit Types (s : cshared V) (t : cthread K V) (ls : list (cthread K V)) (F : list nat) (P : list (V * K)) (op : cop K V).
  Local Notation HB := (mx_bkt hash keq bc E HP).
  Local Notation AL l := (l kf hash keq bc E HP M0) (only parsing).
  Local Notation FL l := (l kf hash keq bc E M0) (only parsing).
  Local Notation PL f I := (f kf hash keq bc E M0 _ _ _ _ I) (only parsing).

  Section one_step.
    Context s ls F P i t op rest (I : ainv s ls F P) (Hi : ls !! i = Some t) (Ep : c_prog t = op :: rest).
    Notation b := (bkt (op_key kf op)).
    Lemma r_kn : akn s op (c_pc t).
    Proof using I Hi Ep. pose proof (PL a_thr I i t Hi) as T. unfold UAnyDefs.athr in T. rewrite Ep in T. exact T. Qed.
    Lemma r_go s' pc : akn s' op pc -> athr s' (cgo t pc).
    Proof using Ep. intros H. unfold UAnyDefs.athr. cbn [cgo c_prog c_pc]. rewrite Ep. exact H. Qed.
    Lemma r_fin s' r : athr s' (cfinish t op r).
    Proof using Ep. unfold UAnyDefs.athr. cbn [cfinish c_prog c_pc]. rewrite Ep. cbn. destruct rest; [reflexivity|exact Logic.I]. Qed.
    Local Notation r_held := (s_held kf hash bc t op rest Ep).
    Local Notation r_held0 := (s_held0 kf hash bc t op rest Ep).

    (** the next access, values, bits, locks, counter and vector as they are *)
    Lemma ago s' pc : c_values s' = c_values s -> c_occ s' = c_occ s -> c_locks s' = c_locks s -> c_count s' = c_count s -> c_ex s' = c_ex s ->
      hnd pc = hnd (c_pc t) -> held b pc = held b (c_pc t) -> cpend pc = cpend (c_pc t) -> leavesI pc = leavesI (c_pc t) -> leavesE pc = leavesE (c_pc t) ->
      (proj_at pc = proj_at (c_pc t) \/ (proj_at (c_pc t) = fresh_call [] /\ exists prog, proj_at pc = fresh_call prog /\ forall qo, qo ∈ prog -> op_wf qo)) ->
      akn s' op pc -> ainv s' (<[i := cgo t pc]> ls) F P.
    Proof using HP I Hi Ep.
      intros G1 G2 G3 G4 G5 H1 H2 H3 H4 H5 H6 H7. apply (AL aupd_same s s' ls F P i t _ I Hi); auto using s_inst, s_erst.
      - rewrite r_held, r_held0. exact H2.
      - apply r_go. exact H7.
    Qed.
    Lemma afin r : hnd (c_pc t) = [] -> held b (c_pc t) = [] -> cpend (c_pc t) = 0 -> proj_at (c_pc t) = fresh_call [] -> leavesI (c_pc t) = false -> leavesE (c_pc t) = false -> (forall p, r <> RInserted p) -> r <> RErased true ->
      ainv s (<[i := cfinish t op r]> ls) F P.
    Proof using HP I Hi Ep.
      intros H1 H2 H3 H4 H5 H6 H7 H8. apply (AL aupd_same s s ls F P i t _ I Hi eq_refl eq_refl eq_refl eq_refl eq_refl).
      - unfold hndt. rewrite H1. reflexivity.
      - rewrite r_held0, H2. reflexivity.
      - unfold pendt. rewrite H3. reflexivity.
      - apply (s_inst_fin t op rest Ep). destruct op; auto. destruct r; auto. exfalso. eapply H7. reflexivity.
      - apply (s_erst_fin t op rest Ep). destruct op; auto. destruct r as [| |[]|]; auto; congruence.
      - left. unfold projt. rewrite H4. reflexivity.
      - apply r_fin.
    Qed.
    Lemma atake x pc : c_locks s !! x = Some false -> held b pc = x :: held b (c_pc t) \/ held b pc = held b (c_pc t) ++ [x] ->
      hnd pc = hnd (c_pc t) -> cpend pc = cpend (c_pc t) -> leavesI pc = leavesI (c_pc t) -> leavesE pc = leavesE (c_pc t) -> proj_at pc = proj_at (c_pc t) ->
      akn s op pc -> ainv (put_lock s x true) (<[i := cgo t pc]> ls) F P.
    Proof using HP I Hi Ep.
      intros Hl H1 H2 H3 H4 H5 H6 H7. apply (AL aupd_lock s ls F P i t _ x true I Hi (lookup_lt_Some _ _ _ Hl)); auto using s_inst, s_erst.
      - split; [unfold SlotProofs.lk; rewrite Hl; reflexivity|]. rewrite r_held, r_held0. destruct H1 as [-> | ->]; [reflexivity|]. symmetry. apply Permutation_cons_append.
      - apply r_go. exact H7.
    Qed.
    Lemma agive x o pc : c_locks s !! x = Some o -> held b (c_pc t) = x :: held b pc ->
      hnd pc = hnd (c_pc t) -> cpend pc = cpend (c_pc t) -> leavesI pc = leavesI (c_pc t) -> leavesE pc = leavesE (c_pc t) -> proj_at pc = proj_at (c_pc t) ->
      akn s op pc -> ainv (put_lock s x false) (<[i := cgo t pc]> ls) F P.
    Proof using HP I Hi Ep.
      intros Hx H1 H2 H3 H4 H5 H6 H7. apply (AL aupd_lock s ls F P i t _ x false I Hi (lookup_lt_Some _ _ _ Hx)); auto using s_inst, s_erst.
      - rewrite r_held, r_held0, H1. reflexivity.
      - apply r_go. exact H7.
    Qed.
    Lemma agive_fin x o r : c_locks s !! x = Some o -> held b (c_pc t) = [x] -> hnd (c_pc t) = [] -> cpend (c_pc t) = 0 -> proj_at (c_pc t) = fresh_call [] ->
      (match op, r with CInsert v, RInserted _ => leavesI (c_pc t) = true | CInsert v, _ => leavesI (c_pc t) = false | _, _ => True end) ->
      (match op, r with CErase k, RErased true => leavesE (c_pc t) = true | CErase k, _ => leavesE (c_pc t) = false | _, _ => True end) ->
      ainv (put_lock s x false) (<[i := cfinish t op r]> ls) F P.
    Proof using HP I Hi Ep.
      intros Hx H1 H2 H3 H4 H5 H6. apply (AL aupd_lock s ls F P i t _ x false I Hi (lookup_lt_Some _ _ _ Hx)).
      - rewrite r_held0, H1. reflexivity.
      - unfold hndt. rewrite H2. reflexivity.
      - unfold pendt. rewrite H3. reflexivity.
      - apply (s_inst_fin t op rest Ep). exact H5.
      - apply (s_erst_fin t op rest Ep). exact H6.
      - unfold projt. rewrite H4. reflexivity.
      - apply r_fin.
    Qed.
    Lemma akn_again s' : isI op \/ isE op -> akn s' op (match op with CInsert _ => UFullCheck | _ => FOcc FEr1 b end).
    Proof using Ep. intros H. destruct op; [exact Logic.I|exact Logic.I|destruct H as [[]|[]]]. Qed.
    Lemma acount d pc : hnd pc = hnd (c_pc t) -> held b pc = held b (c_pc t) -> cpend pc = cpend (c_pc t) + d -> leavesI pc = leavesI (c_pc t) -> leavesE pc = leavesE (c_pc t) -> proj_at pc = proj_at (c_pc t) ->
      akn s op pc -> ainv (put_count s (c_count s + d)) (<[i := cgo t pc]> ls) F P.
    Proof using HP I Hi Ep.
      intros H1 H2 H3 H4 H5 H6 H7. refine (AL aupd_cells s ls F P i t (put_count s (c_count s + d)) _ F I Hi eq_refl eq_refl eq_refl _ _ _ _ _ _ _ _ _).
      - unfold hndt at 1. cbn [cgo c_pc]. rewrite H1. exact (FL g_nodup s ls F P i t I Hi).
      - unfold hndt at 1. cbn [cgo c_pc]. rewrite H1. auto.
      - intros x. rewrite r_held, r_held0, H2. reflexivity.
      - unfold pendt. cbn [cgo c_pc put_count c_count]. lia.
      - unfold projt at 1. cbn [cgo c_pc]. rewrite H6. rewrite list_insert_id by (rewrite list_lookup_fmap, Hi; reflexivity). exact (PL a_vec I).
      - apply s_inst. exact H4.
      - apply s_erst. exact H5.
      - auto.
      - apply r_go. exact H7.
    Qed.
    Lemma avec y pc F' : NoDup (hnd pc ++ F') -> (forall x, x ∈ hnd pc ++ F' -> x ∈ hnd (c_pc t) ++ F) -> held b pc = held b (c_pc t) -> cpend pc = cpend (c_pc t) -> leavesI pc = leavesI (c_pc t) -> leavesE pc = leavesE (c_pc t) ->
      inv (T:=Z) (C:=Z) E vm (fun _ => True) (fun w => sumZ w (Z.of_nat <$> F')) y (<[i := proj_at pc]> (projt <$> ls)) ->
      (forall j u, j <> i -> ls !! j = Some u -> written (c_ex s) (projt u) -> written y (projt u)) ->
      akn (put_ex s y) op pc -> ainv (put_ex s y) (<[i := cgo t pc]> ls) F' P.
    Proof using HP I Hi Ep.
      intros H0 H1 H2 H3 H4 H5 H6 H7 H8. refine (AL aupd_cells s ls F P i t (put_ex s y) (cgo t pc) F' I Hi eq_refl eq_refl eq_refl H0 H1 _ _ H6 _ _ H7 _).
      - intros x. rewrite r_held, r_held0, H2. reflexivity.
      - unfold pendt. cbn [cgo c_pc put_ex c_count]. lia.
      - apply s_inst. exact H4.
      - apply s_erst. exact H5.
      - apply r_go. exact H8.
    Qed.
    Lemma avec_others q y q' : (projt <$> ls) !! i = Some q -> qstep (vctl E) i (c_ex s) q = Some (y, q') -> forall j u, j <> i -> ls !! j = Some u -> written (c_ex s) (projt u) -> written y (projt u).
    Proof using I.
      intros Hq Hst j u Hji Hj Hw. eapply (written_other E _ _ _ _ i j q); [exact (PL a_vec I)|exact Hq|rewrite list_lookup_fmap, Hj; reflexivity|congruence|exact Hst|exact Hw].
    Qed.
    Lemma g_F x : x ∈ F -> (bc <= x)%nat /\ c_occ s !! x = Some false.
    Proof using I. intros H. apply (PL a_free I). apply elem_of_app. auto. Qed.
    Lemma g_hF x : x ∈ hnd (c_pc t) ++ F -> (bc <= x)%nat /\ c_occ s !! x = Some false.
    Proof using I Hi. intros H. apply elem_of_app in H as [H|H]; [exact (FL g_hand s ls F P I i t x Hi H)|exact (g_F x H)]. Qed.
    (** the value of an entry that is not occupied changes *)
    Lemma aconstruct x w pc : aown s t x -> c_occ s !! x = Some false -> hnd pc = hnd (c_pc t) -> held b pc = held b (c_pc t) -> cpend pc = cpend (c_pc t) -> leavesI pc = leavesI (c_pc t) -> leavesE pc = leavesE (c_pc t) ->
      (proj_at pc = proj_at (c_pc t) \/ (proj_at (c_pc t) = fresh_call [] /\ exists prog, proj_at pc = fresh_call prog /\ forall qo, qo ∈ prog -> op_wf qo)) ->
      akn (put_value s x w) op pc -> ainv (put_value s x w) (<[i := cgo t pc]> ls) F P.
    Proof using HP I Hi Ep.
      intros Ho Hx H1 H2 H3 H4 H5 H6 H7. pose proof (PL a_len I) as (A1 & A3 & A4).
      assert (Es : stored (put_value s x w) = stored s).
      { unfold UOneDefs.stored. apply list_omap_ext. apply Forall_Forall2_diag. apply Forall_forall. intros y _. unfold sv. cbn [put_value c_values c_occ]. destruct (decide (x = y)) as [<- |Hne]; [rewrite Hx; reflexivity|rewrite list_lookup_insert_ne by exact Hne; reflexivity]. }
      refine (AL aupd s ls F P i t (put_value s x w) _ F P I Hi _ _ _ _ _ _ _ _ _ _ _ (PL a_keq I) _ _).
      - cbn. rewrite insert_length. auto.
      - intros y Hy. cbn. rewrite list_lookup_insert_ne by (intros ->; contradiction). auto.
      - unfold hndt at 1. cbn [cgo c_pc]. rewrite H1. exact (FL g_nodup s ls F P i t I Hi).
      - unfold hndt. cbn [cgo c_pc]. rewrite H1. intros y Hy. split; [left; exact Hy|]. exact (g_hF y Hy).
      - intros y Hy. destruct (PL a_val I y Hy) as [w' Hw]. exists w'. cbn. rewrite list_lookup_insert_ne; [exact Hw|]. intros ->. cbn in Hy. congruence.
      - intros y v Hy Hoc. cbn in Hoc |- *. rewrite list_lookup_insert_ne by (intros ->; congruence). exact (PL a_head I y v Hy Hoc).
      - intros y. rewrite r_held, r_held0, H2. reflexivity.
      - rewrite Es. unfold pendt. cbn [cgo c_pc put_value c_count]. lia.
      - unfold projt at 1. cbn [cgo c_pc put_value c_ex]. assert (Hpi : (projt <$> ls) !! i = Some (projt t)) by (rewrite list_lookup_fmap, Hi; reflexivity). destruct H6 as [-> |(H6 & prog & -> & Hwf)].
        + rewrite list_insert_id by exact Hpi. exact (PL a_vec I).
        + eapply vec_enter; [exact (PL a_vec I)|rewrite Hpi; unfold projt; rewrite H6; reflexivity|exact Hwf].
      - rewrite Es, (s_inst t pc H4). reflexivity.
      - rewrite (s_erst t pc H5). reflexivity.
      - auto.
      - apply r_go. exact H7.
    Qed.
    Lemma astored_occ x v o : c_values s !! x = Some (Some v) -> (exists o0, c_occ s !! x = Some o0) -> exists A B, stored s = A ++ (if default false (c_occ s !! x) then [v] else []) ++ B /\ stored (put_occ s x o) = A ++ (if o : bool then [v] else []) ++ B.
    Proof using I.
      intros Hv [o0 Ho]. pose proof (PL a_len I) as (A1 & A3 & A4).
      destruct (stored_split bc E s x) as (A & B & HS); [rewrite <- A1; eapply lookup_lt_Some; exact Hv|exact A1|exact A3|]. exists A, B.
      assert (Ev : forall o1, put_occ (put_value s x (Some v)) x o1 = put_occ s x o1) by (intros o1; unfold put_occ, put_value; cbn; rewrite (list_insert_id _ _ _ Hv); reflexivity).
      assert (Eo : put_occ s x o0 = s) by (unfold put_occ; rewrite (list_insert_id _ _ _ Ho); destruct s; reflexivity).
      unfold UOneDefs.stored. pose proof (HS (Some v) o0) as H0. pose proof (HS (Some v) o) as H1. rewrite Ev in H0, H1. rewrite Eo in H0. rewrite H0, H1, Ho. cbn. auto.
    Qed.
    (** the bit that makes the value of an insert visible *)
    Lemma aoccupy x v pc : aown s t x -> (x = b \/ (bc <= x)%nat) -> op = CInsert v -> c_values s !! x = Some (Some v) -> c_occ s !! x = Some false ->
      (hnd (c_pc t) = [x] \/ (hnd (c_pc t) = [] /\ (x < bc)%nat)) -> hnd pc = [] -> held b pc = held b (c_pc t) -> cpend (c_pc t) = 1 -> cpend pc = 0 -> leavesI pc = true -> leavesI (c_pc t) = false -> proj_at pc = proj_at (c_pc t) ->
      akn (put_occ s x true) op pc -> ainv (put_occ s x true) (<[i := cgo t pc]> ls) F P.
    Proof using HP I Hi Ep.
      intros Ho Hxb Eop Hv Hx H1 H1' H2 H3 H3' H4 H4' H6 H7. pose proof (PL a_len I) as (A1 & A3 & A4).
      assert (Hself : forall y o, c_occ (put_occ s x true) !! y = Some o -> (x = y /\ o = true) \/ (x <> y /\ c_occ s !! y = Some o)).
      { intros y o Hy. cbn in Hy. apply list_lookup_insert_Some in Hy as [(H & H' & _)|[H H']]; auto. }
      pose proof (FL g_nodup s ls F P i t I Hi) as ND. unfold hndt in ND.
      assert (HxF : x ∉ F). { intros HF. destruct H1 as [H1|[_ H1]]; [|apply g_F in HF; lia]. rewrite H1 in ND. apply NoDup_cons in ND as [ND _]. contradiction. }
      destruct (astored_occ x v true Hv (ex_intro _ _ Hx)) as (SA & SB & S1 & S2). rewrite Hx in S1. cbn in S1.
      refine (AL aupd s ls F P i t (put_occ s x true) _ F P I Hi _ _ _ _ _ _ _ _ _ _ _ (PL a_keq I) _ _).
      - cbn. rewrite insert_length. auto.
      - intros y Hy. cbn. rewrite list_lookup_insert_ne by (intros ->; contradiction). auto.
      - unfold hndt. cbn [cgo c_pc]. rewrite H1'. apply NoDup_app in ND. apply ND.
      - unfold hndt. cbn [cgo c_pc]. rewrite H1'. cbn [app]. intros y Hy. destruct (g_F y Hy). split; [left; apply elem_of_app; right; exact Hy|]. split; [assumption|]. cbn. rewrite list_lookup_insert_ne by (intros ->; contradiction). assumption.
      - intros y Hy. destruct (Hself y true Hy) as [[<- _]|[_ Hy']]; [exists v; exact Hv|exact (PL a_val I y Hy')].
      - intros y v' Hyb Hy Hv'. destruct (Hself y true Hy) as [[<- _]|[_ Hy']]; [|exact (PL a_head I y v' Hyb Hy' Hv')]. cbn [put_occ c_values] in Hv'. rewrite Hv in Hv'. injection Hv' as <-. destruct Hxb as [Hxb|Hxb]; [|lia]. rewrite Hxb, Eop. reflexivity.
      - intros y. rewrite r_held, r_held0, H2. reflexivity.
      - rewrite S1, S2. unfold pendt. cbn [cgo c_pc put_occ c_count]. rewrite H3, H3', !app_length. cbn. lia.
      - unfold projt at 1. cbn [cgo c_pc]. rewrite H6. rewrite list_insert_id by (rewrite list_lookup_fmap, Hi; reflexivity). exact (PL a_vec I).
      - rewrite S1, S2. unfold inst. cbn [cgo c_pc c_prog c_log]. rewrite Ep, Eop, H4, H4'. cbn [app]. solve_Permutation.
      - unfold erst. cbn [cgo c_pc c_prog c_log]. rewrite Ep, Eop. reflexivity.
      - auto.
      - apply r_go. exact H7.
    Qed.
    (** the bit that takes a value away *)
    Lemma avacate x k pc : x ∈ held b (c_pc t) -> op = CErase k -> hit kf keq s x k -> c_occ s !! x = Some true ->
      hnd (c_pc t) = [] -> (hnd pc = [] \/ (hnd pc = [x] /\ (bc <= x)%nat)) -> held b pc = held b (c_pc t) -> cpend (c_pc t) = 0 -> cpend pc = 1 -> leavesE pc = true -> leavesE (c_pc t) = false -> proj_at pc = proj_at (c_pc t) ->
      akn (put_occ s x false) op pc -> exists P', ainv (put_occ s x false) (<[i := cgo t pc]> ls) F P'.
    Proof using HP I Hi Ep.
      intros Ho Eop (v & Hv & Hkv) Hx H1 H1' H2 H3 H3' H4 H4' H6 H7. pose proof (PL a_len I) as (A1 & A3 & A4). exists (P ++ [(v, k)]).
      assert (Hown : aown s t x) by (right; rewrite r_held0; auto).
      assert (Hn : (x < length (c_occ s))%nat) by (eapply lookup_lt_Some; exact Hx).
      pose proof (FL g_nodup s ls F P i t I Hi) as ND. unfold hndt in ND. rewrite H1 in ND. cbn [app] in ND.
      assert (HxF : x ∉ F) by (intros HF; apply g_F in HF; destruct HF; congruence).
      destruct (astored_occ x v false Hv (ex_intro _ _ Hx)) as (SA & SB & S1 & S2). rewrite Hx in S1. cbn in S1.
      refine (AL aupd s ls F P i t (put_occ s x false) _ F (P ++ [(v, k)]) I Hi _ _ _ _ _ _ _ _ _ _ _ _ _ _).
      - cbn. rewrite insert_length. auto.
      - intros y Hy. cbn. rewrite list_lookup_insert_ne by (intros ->; contradiction). auto.
      - unfold hndt. cbn [cgo c_pc]. destruct H1' as [-> |[-> _]]; [exact ND|]. apply NoDup_cons. auto.
      - unfold hndt. cbn [cgo c_pc]. rewrite H1. cbn [app]. intros y Hy. apply elem_of_app in Hy as [Hy|Hy].
        + destruct H1' as [H1'|[H1' Hge]]; rewrite H1' in Hy; [inversion Hy|]. apply elem_of_list_singleton in Hy as ->. split; [right; exact Hx|]. split; [exact Hge|]. cbn. apply list_lookup_insert. exact Hn.
        + destruct (g_F y Hy). split; [left; exact Hy|]. split; [assumption|]. cbn. rewrite list_lookup_insert_ne by (intros ->; contradiction). assumption.
      - intros y Hy. cbn in Hy. apply list_lookup_insert_Some in Hy as [(_ & H & _)|[_ H]]; [discriminate|exact (PL a_val I y H)].
      - intros y w Hyb Hy. cbn in Hy. apply list_lookup_insert_Some in Hy as [(_ & H & _)|[_ H]]; [discriminate|exact (PL a_head I y w Hyb H)].
      - intros y. rewrite r_held, r_held0, H2. reflexivity.
      - rewrite S1, S2. unfold pendt. cbn [cgo c_pc put_occ c_count]. rewrite H3, H3', !app_length. cbn. lia.
      - unfold projt at 1. cbn [cgo c_pc]. rewrite H6. rewrite list_insert_id by (rewrite list_lookup_fmap, Hi; reflexivity). exact (PL a_vec I).
      - rewrite S1, S2, fmap_app. unfold inst. cbn [cgo c_pc c_prog c_log]. rewrite Ep, Eop. cbn [app fmap list_fmap fst]. solve_Permutation.
      - rewrite fmap_app. unfold erst. cbn [cgo c_pc c_prog c_log]. rewrite Ep, Eop, H4, H4'. cbn [app fmap list_fmap snd]. solve_Permutation.
      - apply Forall_app. split; [exact (PL a_keq I)|]. constructor; [exact Hkv|constructor].
      - auto.
      - apply r_go. exact H7.
    Qed.

  End one_step.
  Section steps.
    Context s ls F P i t op rest (I : ainv s ls F P) (Hi : ls !! i = Some t) (Ep : c_prog t = op :: rest).
    Notation b := (bkt (op_key kf op)).
    Local Notation SL l := (l s ls F P i t _ rest I Hi Ep) (only parsing).
    Definition agood s' t' : Prop := exists F' P', ainv s' (<[i := t']> ls) F' P'.
    Ltac keep := exists F, P.
    Ltac togo Epc := refine (SL ago _ _ _ _ _ _ _ _ _ _ _ _ _ _); rewrite ?Epc; try reflexivity; try (left; reflexivity).
    Ltac tofin Epc := refine (SL afin _ _ _ _ _ _ _ _ _); rewrite ?Epc; try reflexivity; try discriminate.
    Lemma aafter_hit c x : c_pc t = FVal c x -> afk kf hash bc op c -> (forall p, (c = FErB p \/ exists q, c = FErL p q) -> x = p -> c_occ s !! p = Some true) -> hit kf keq s x (op_key kf op) -> agood s (after_find t op b c (Some x)).
    Proof using HP I Hi Ep.
      intros Epc Hf Ho Hh. keep. destruct c as [| | |e ck| |p|p q]; cbn [after_find afk] in *.
      - tofin Epc.
      - tofin Epc.
      - togo Epc. exact Hf.
      - togo Epc. exact Hf.
      - case_bool_decide as Hd; togo Epc; cbn [UAnyDefs.akn apk]; auto.
      - destruct Hf as [H1 H2]. case_bool_decide as Hd; togo Epc; cbn [UAnyDefs.akn]; [|auto]. injection Hd as Hd. split; [exact H1|]. split; [exact H2|]. split; [apply Ho; auto|]. rewrite <- Hd. exact Hh.
      - destruct Hf as [H1 H2]. togo Epc. cbn [UAnyDefs.akn apk]. split; [exact H1|]. split; [exact H2|]. intros Hd. apply bool_decide_eq_true in Hd. injection Hd as Hd. split; [apply Ho; eauto|]. rewrite <- Hd. exact Hh.
    Qed.
    Lemma aafter_none c x : c_pc t = FOff c x -> afk kf hash bc op c -> agood s (after_find t op b c None).
    Proof using HP I Hi Ep.
      intros Epc Hf. keep. destruct c as [| | |e ck| |p|p q]; cbn [after_find afk] in *.
      - tofin Epc.
      - togo Epc. exact Hf.
      - togo Epc. exact Hf.
      - case_bool_decide as Hd; togo Epc; cbn [UAnyDefs.akn]; [| |exact Hf].
        + right. split; [reflexivity|]. exists [QPop KPopBack]. split; [reflexivity|]. intros qo Hq. apply elem_of_list_singleton in Hq as ->. reflexivity.
        + split; [exact Hf|]. split; reflexivity.
      - tofin Epc.
      - destruct Hf as [H1 H2]. rewrite bool_decide_eq_false_2 by discriminate. togo Epc. exact H1.
      - destruct Hf as [H1 H2]. togo Epc. cbn [UAnyDefs.akn apk]. split; [exact H1|]. split; [exact H2|]. rewrite bool_decide_eq_false_2 by discriminate. discriminate.
    Qed.
    Lemma aagain_go : isI op \/ isE op -> hnd (c_pc t) = [] -> held b (c_pc t) = [] -> cpend (c_pc t) = 0 -> leavesI (c_pc t) = false -> leavesE (c_pc t) = false -> proj_at (c_pc t) = fresh_call [] -> agood s (again t b op).
    Proof using HP I Hi Ep.
      intros Ho H1 H2 H3 H4 H5 H6. keep. rewrite (UOneStep.again_go kf hash bc t op rest Ep). pose proof (akn_again t op rest Ep s Ho) as Hk.
      refine (SL ago s _ eq_refl eq_refl eq_refl eq_refl eq_refl _ _ _ _ _ _ Hk); rewrite ?H1, ?H2, ?H3, ?H4, ?H5, ?H6; destruct op; try reflexivity; left; reflexivity.
    Qed.
    Lemma aagain_give x o : c_locks s !! x = Some o -> isI op \/ isE op -> hnd (c_pc t) = [] -> held b (c_pc t) = [x] -> cpend (c_pc t) = 0 -> leavesI (c_pc t) = false -> leavesE (c_pc t) = false -> proj_at (c_pc t) = fresh_call [] -> agood (put_lock s x false) (again t b op).
    Proof using HP I Hi Ep.
      intros Hx Ho H1 H2 H3 H4 H5 H6. keep. rewrite (UOneStep.again_go kf hash bc t op rest Ep). pose proof (akn_again t op rest Ep s Ho) as Hk.
      refine (SL agive x o _ Hx _ _ _ _ _ _ Hk); rewrite ?H1, ?H2, ?H3, ?H4, ?H5, ?H6; destruct op; reflexivity.
    Qed.
    Lemma a_ge p : c_occ s !! p = Some true -> hit kf keq s p (op_key kf op) -> p <> b -> (bc <= p)%nat.
    Proof using HP I.
      intros Ho (v & Hv & Hk) Hne. destruct (decide (p < bc)%nat) as [Hlt|]; [|lia]. exfalso. apply Hne. rewrite <- (PL a_head I p v Hlt Ho Hv). exact (mx_keq hash keq bc E HP _ _ Hk).
    Qed.

    Lemma astep_at s' t' : ustep kf hash keq bc E i s t = Some (s', t') -> agood s' t'.
    Proof using HP I Hi Ep.
      pose proof (r_kn s ls F P i t op rest I Hi Ep) as Hk. pose proof (HB (op_key kf op)) as Hb. unfold ustep. rewrite Ep, (mx_bucket hash keq bc E HP).
      destruct (c_pc t) as [| | |c x|c x|c x|c x|c x|c x|c x pv|c x pv| | | | | | |r|e|e q|e p|e p|e p|e p|e p|e r|p|p|p|p|p ok|p q|p q|p|p q|p q|p q o|p q o|p q|p q|p q|p q x|p q ok|q ok] eqn:Epc; cbn [UAnyDefs.akn] in Hk; intros Hst.
      - (* UIdle *) injection Hst as <- <-. keep. destruct op; togo Epc; exact Logic.I.
      - (* UFullCheck *) injection Hst as <- <-. keep. case_match; [tofin Epc|togo Epc; exact Hk].
      - injection Hst as <- <-. keep. case_match; [tofin Epc|togo Epc; exact Hk].
      - (* FOcc *) destruct (c_occ s !! x) as [o|] eqn:Ho; [|discriminate]. injection Hst as <- <-. keep. destruct o; togo Epc; cbn [UAnyDefs.akn]; [|exact Hk].
        split; [exact Hk|]. destruct c; auto; intros <-; exact Ho.
      - (* FVal *) destruct Hk as [Hf Ho]. destruct (c_values s !! x) as [[v|]|] eqn:Hv; try discriminate. injection Hst as <- <-. destruct (keq (kf v) (op_key kf op)) eqn:Ek.
        + apply aafter_hit; auto; [|exists v; auto]. intros p [-> |[q ->]] Hx; apply Ho; exact Hx.
        + keep. togo Epc. exact Hf.
      - (* FOff *) destruct (c_off s !! x) as [o|] eqn:Ho; [|discriminate]. injection Hst as <- <-. destruct (o =? 0); [eapply aafter_none; eauto|]. keep. togo Epc. exact Hk.
      - (* FAdd *) destruct (c_off s !! x) as [o|] eqn:Ho; [|discriminate]. destruct (next_entry x o) as [j|]; [|discriminate]. injection Hst as <- <-. keep. togo Epc. exact Hk.
      - (* EOff *) destruct (c_off s !! x) as [o|] eqn:Ho; [|discriminate]. injection Hst as <- <-. keep. destruct (o =? 0); [|destruct c; togo Epc; exact Hk]. destruct c; togo Epc; exact Hk.
      - (* EAdd *) destruct (c_off s !! x) as [o|] eqn:Ho; [|discriminate]. destruct (next_entry x o) as [j|]; [|discriminate]. injection Hst as <- <-. keep. destruct c; togo Epc; exact Hk.
      - (* POff *) destruct Hk as [H1 H2]. destruct (c_off s !! x) as [o|] eqn:Ho; [|discriminate]. injection Hst as <- <-. keep. destruct (o =? 0); [|destruct c; togo Epc; cbn [UAnyDefs.akn]; auto].
        destruct c as [p|p q same]; cbn [after_prev apk] in *; [togo Epc; cbn [UAnyDefs.akn]; auto|]. destruct H2 as [H2 H3]. destruct (same && bool_decide (q = pv)) eqn:Es; togo Epc; cbn [UAnyDefs.akn]; [|exact H1]. apply andb_prop in Es as [Es _]. auto.
      - (* PAdd *) destruct Hk as [H1 H2]. destruct (c_off s !! x) as [o|] eqn:Ho; [|discriminate]. destruct (next_entry x o) as [j|]; [|discriminate]. injection Hst as <- <-. keep. case_bool_decide; [|destruct c; togo Epc; cbn [UAnyDefs.akn]; auto].
        destruct c as [p|p q same]; cbn [after_prev apk] in *; [togo Epc; cbn [UAnyDefs.akn]; auto|]. destruct H2 as [H2 H3]. destruct (same && bool_decide (q = pv)) eqn:Es; togo Epc; cbn [UAnyDefs.akn]; [|exact H1]. apply andb_prop in Es as [Es _]. auto.
      - (* IOcc *) destruct (c_occ s !! b) as [o|] eqn:Ho; [|discriminate]. injection Hst as <- <-. keep. destruct o; togo Epc; exact Hk.
      - (* ILockB *) destruct (c_locks s !! b) as [[]|] eqn:Ho; [| |discriminate]; injection Hst as <- <-.
        + apply aagain_go; rewrite ?Epc; auto.
        + keep. refine (SL atake b _ Ho _ _ _ _ _ _ _); rewrite ?Epc; try reflexivity; [left; reflexivity|]. exact Hk.
      - (* IOccB *) destruct (c_occ s !! b) as [o|] eqn:Ho; [|discriminate]. injection Hst as <- <-. keep. destruct o; togo Epc; cbn [UAnyDefs.akn]; auto.
      - (* IConB *) destruct Hk as [H1 H2]. destruct op as [v| |]; try contradiction. destruct (c_values s !! _) as [o|] eqn:Ho; [|discriminate]. injection Hst as <- <-. keep.
        refine (SL aconstruct _ (Some v) _ _ H2 _ _ _ _ _ _ _); rewrite ?Epc; try reflexivity; [right; rewrite (s_held0 kf hash bc t _ rest Ep), Epc; split; [left|right; exact Hb]|left; reflexivity|]. cbn [UAnyDefs.akn]. split; [cbn; apply list_lookup_insert; eapply lookup_lt_Some; exact Ho|exact H2].
      - (* ICntB *) injection Hst as <- <-. keep. refine (SL acount 1 _ _ _ _ _ _ _ _); rewrite ?Epc; try reflexivity. exact Hk.
      - (* ISetB *) destruct Hk as [H1 H2]. rewrite H2 in Hst. injection Hst as <- <-. keep. destruct op as [v| |]; try contradiction. cbn [own_value] in H1.
        refine (SL aoccupy _ v _ _ (or_introl eq_refl) eq_refl H1 H2 _ _ _ _ _ _ _ _ _); rewrite ?Epc; try reflexivity; try exact Logic.I; [right; rewrite (s_held0 kf hash bc t _ rest Ep), Epc; split; [left|right; exact Hb]|]. right. split; [reflexivity|exact Hb].
      - (* IUnlB *) destruct (c_locks s !! b) as [o|] eqn:Ho; [|discriminate]. injection Hst as <- <-. destruct r as [p|].
        + keep. refine (SL agive_fin b o _ Ho _ _ _ _ _ _); rewrite ?Epc; try reflexivity; destruct op; try contradiction; auto; reflexivity.
        + eapply aagain_give; rewrite ?Epc; eauto.
      - (* ILockL *) destruct (c_locks s !! e) as [[]|] eqn:Ho; [| |discriminate]; injection Hst as <- <-.
        + apply aagain_go; rewrite ?Epc; auto.
        + keep. refine (SL atake e _ Ho _ _ _ _ _ _ _); rewrite ?Epc; try reflexivity; [left; reflexivity|]. exact Hk.
      - (* IPop *) destruct Hk as [H1 H3]. assert (Hpi : (projt <$> ls) !! i = Some q) by (rewrite list_lookup_fmap, Hi; unfold projt; cbn; rewrite Epc; reflexivity).
        destruct (qstep (vctl E) i (c_ex s) q) as [[y q']|] eqn:Hq; [|discriminate]. pose proof (PL a_vec I) as HV. pose proof (SL avec y) as HVec. pose proof (avec_others s ls F P i I q y q' Hpi Hq) as Hoth. rewrite Epc in HVec.
        pose proof (FL g_nodup s ls F P i t I Hi) as ND. unfold hndt in ND. rewrite Epc in ND. cbn [hnd app] in ND, HVec.
        destruct (vec_pop_any E F _ _ i q y q' HV (FL g_vany s ls F P I) Hpi H3 Hq) as [[Hp' HV']|[(Ep' & Hl & HV')|(p & F' & Ep' & Hl & HF & HV')]].
        + rewrite (proj1 Hp') in Hst. injection Hst as <- <-. keep. apply HVec; try reflexivity; try assumption; cbn [hnd app]; auto. cbn [UAnyDefs.akn]. auto.
        + rewrite Ep' in Hst. assert (Es : (s', t') = (put_ex s y, cgo t (IUnlL e None))) by (destruct (last (q_log q')) as [[]|] eqn:El; try congruence; exfalso; eapply Hl; reflexivity). injection Es as -> ->. keep. apply HVec; try reflexivity; try assumption; cbn [hnd app]; auto.
        + rewrite Ep', Hl, (proj2 (Z.leb_le _ _)), Nat2Z.id in Hst by lia. injection Hst as <- <-. exists F', P. rewrite HF in ND. apply HVec; try reflexivity; try assumption; cbn [hnd app]; auto. intros z Hz. rewrite HF. exact Hz.
      - (* IConL *) destruct op as [v| |]; try contradiction. destruct (c_values s !! p) as [o|] eqn:Ho; [|discriminate]. injection Hst as <- <-. keep. assert (Hpt : p ∈ hndt t) by (unfold hndt; rewrite Epc; left). destruct (FL g_hand s ls F P I i t p Hi Hpt) as [Hr Hoc].
        refine (SL aconstruct p (Some v) _ _ Hoc _ _ _ _ _ _ _); rewrite ?Epc; try reflexivity; [left; exact Hpt|left; reflexivity|]. cbn [UAnyDefs.akn own_value]. cbn. apply list_lookup_insert; eapply lookup_lt_Some; exact Ho.
      - (* IOffL *) destruct (c_off s !! p) as [o|] eqn:Ho; [|discriminate]. injection Hst as <- <-. keep. togo Epc. exact Hk.
      - (* ICntL *) injection Hst as <- <-. keep. refine (SL acount 1 _ _ _ _ _ _ _ _); rewrite ?Epc; try reflexivity. exact Hk.
      - (* ISetL *) assert (Hpt : p ∈ hndt t) by (unfold hndt; rewrite Epc; left). destruct (FL g_hand s ls F P I i t p Hi Hpt) as [Hr Hoc]. rewrite Hoc in Hst. injection Hst as <- <-. keep. destruct op as [v| |]; try contradiction. cbn [own_value] in Hk.
        refine (SL aoccupy p v _ _ (or_intror Hr) eq_refl Hk Hoc _ _ _ _ _ _ _ _ _); rewrite ?Epc; try reflexivity; try exact Logic.I; [left; exact Hpt|left; reflexivity].
      - (* ILinkL *) destruct (c_off s !! e) as [o|] eqn:Ho; [|discriminate]. injection Hst as <- <-. keep. togo Epc. exact Hk.
      - (* IUnlL *) destruct (c_locks s !! e) as [o|] eqn:Ho; [|discriminate]. injection Hst as <- <-. destruct r as [p|].
        + keep. refine (SL agive_fin e o _ Ho _ _ _ _ _ _); rewrite ?Epc; try reflexivity; destruct op; try contradiction; auto; reflexivity.
        + eapply aagain_give; rewrite ?Epc; eauto.
      - (* XLockB *) destruct Hk as [H1 ->]. destruct (c_locks s !! b) as [[]|] eqn:Ho; [| |discriminate]; injection Hst as <- <-.
        + apply aagain_go; rewrite ?Epc; auto.
        + keep. refine (SL atake b _ Ho _ _ _ _ _ _ _); rewrite ?Epc; try reflexivity; [left; reflexivity|]. cbn [UAnyDefs.akn afk]. auto.
      - (* XResetB *) destruct Hk as (H1 & -> & H3 & H4). rewrite H3 in Hst. injection Hst as <- <-. destruct op as [|k|]; try contradiction.
        destruct (SL avacate (bkt (op_key kf (CErase k : cop K V))) k (XCntB (bkt (op_key kf (CErase k : cop K V))))) as [P' HP']; rewrite ?Epc; auto.
        + left.
        + cbn [UAnyDefs.akn]. split; [exact H1|]. split; [reflexivity|]. cbn. apply list_lookup_insert. eapply lookup_lt_Some; exact H3.
        + exists F, P'. exact HP'.
      - (* XCntB *) injection Hst as <- <-. keep. refine (SL acount (-1) _ _ _ _ _ _ _ _); rewrite ?Epc; try reflexivity. exact Hk.
      - (* XDesB *) destruct Hk as (H1 & -> & H3). destruct (c_values s !! b) as [[v|]|] eqn:Ho; try discriminate. injection Hst as <- <-. keep.
        refine (SL aconstruct b None _ _ H3 _ _ _ _ _ _ _); rewrite ?Epc; try reflexivity; [right; rewrite (s_held0 kf hash bc t _ rest Ep), Epc; split; [left|right; exact Hb]|left; reflexivity|]. exact H1.
      - (* XUnlB *) destruct (c_locks s !! p) as [o|] eqn:Ho; [|discriminate]. injection Hst as <- <-. destruct ok.
        + keep. refine (SL agive_fin p o _ Ho _ _ _ _ _ _); rewrite ?Epc; try reflexivity; destruct op; try contradiction; auto; reflexivity.
        + eapply aagain_give; rewrite ?Epc; eauto.
      - (* XLock1 *) destruct Hk as [H1 H2]. destruct (c_locks s !! p) as [[]|] eqn:Ho; [| |discriminate]; injection Hst as <- <-.
        + apply aagain_go; rewrite ?Epc; auto.
        + keep. refine (SL atake p _ Ho _ _ _ _ _ _ _); rewrite ?Epc; try reflexivity; [left; reflexivity|]. cbn [UAnyDefs.akn]. auto.
      - (* XLock2 *) destruct Hk as [H1 H2]. destruct (c_locks s !! q) as [[]|] eqn:Ho; [| |discriminate]; injection Hst as <- <-.
        + keep. togo Epc. exact H1.
        + keep. refine (SL atake q _ Ho _ _ _ _ _ _ _); rewrite ?Epc; try reflexivity; [right; reflexivity|]. cbn [UAnyDefs.akn afk]. auto.
      - (* XBack *) destruct (c_locks s !! p) as [o|] eqn:Ho; [|discriminate]. injection Hst as <- <-. eapply aagain_give; rewrite ?Epc; eauto.
      - (* XTest *) destruct (c_off s !! p) as [o|] eqn:Ho; [|discriminate]. injection Hst as <- <-. keep. destruct (o =? 0); togo Epc; exact Hk.
      - (* XAdd1 *) destruct (c_off s !! p) as [o|] eqn:Ho; [|discriminate]. injection Hst as <- <-. keep. togo Epc; exact Hk.
      - (* XAdd2 *) destruct (c_off s !! q) as [o'|] eqn:Ho; [|discriminate]. injection Hst as <- <-. keep. togo Epc; exact Hk.
      - (* XPut *) destruct (c_off s !! q) as [o'|] eqn:Ho; [|discriminate]. injection Hst as <- <-. keep. togo Epc; exact Hk.
      - (* XReset *) destruct Hk as (H1 & H2 & H3 & H4). rewrite H3 in Hst. injection Hst as <- <-. pose proof (a_ge p H3 H4 H2) as Hge. destruct op as [|k|]; try contradiction.
        destruct (SL avacate p k (XCnt p q)) as [P' HP']; rewrite ?Epc; auto.
        + left.
        + exists F, P'. exact HP'.
      - (* XCnt *) injection Hst as <- <-. keep. refine (SL acount (-1) _ _ _ _ _ _ _ _); rewrite ?Epc; try reflexivity. exact Hk.
      - (* XDes *) destruct (c_values s !! p) as [[v|]|] eqn:Ho; try discriminate. injection Hst as <- <-. keep. assert (Hpt : p ∈ hndt t) by (unfold hndt; rewrite Epc; left). destruct (FL g_hand s ls F P I i t p Hi Hpt) as [Hr Hoc].
        refine (SL aconstruct p None _ _ Hoc _ _ _ _ _ _ _); rewrite ?Epc; try reflexivity; [left; exact Hpt| |].
        + right. split; [reflexivity|]. exists [QPush KPushBack (Z.of_nat p)]. split; [reflexivity|]. intros qo Hqo. apply elem_of_list_singleton in Hqo as ->. reflexivity.
        + cbn [UAnyDefs.akn]. split; [exact Hk|]. split; [split; reflexivity|exact Logic.I].
      - (* XPush *) destruct Hk as (H1 & H4 & H5). assert (Hpi : (projt <$> ls) !! i = Some x) by (rewrite list_lookup_fmap, Hi; unfold projt; cbn; rewrite Epc; reflexivity).
        destruct (qstep (vctl E) i (c_ex s) x) as [[y x']|] eqn:Hq; [|discriminate]. injection Hst as <- <-. pose proof (PL a_vec I) as HV. pose proof (SL avec y) as HVec. pose proof (avec_others s ls F P i I x y x' Hpi Hq) as Hoth. rewrite Epc in HVec.
        pose proof (FL g_nodup s ls F P i t I Hi) as ND. unfold hndt in ND. rewrite Epc in ND. cbn [hnd app] in ND, HVec.
        destruct (vec_push_many E F _ _ i x p y x' HV Hpi H4 H5 Hq) as [(Hp' & Hw' & HV')|[Ep' [HV'|HV']]].
        + rewrite (proj1 Hp'). keep. apply HVec; try reflexivity; try assumption; cbn [hnd app]; auto. cbn [UAnyDefs.akn]. auto.
        + rewrite Ep'. exists (p :: F), P. apply HVec; try reflexivity; try assumption; cbn [hnd app]; auto.
        + rewrite Ep'. keep. apply HVec; try reflexivity; try assumption; cbn [hnd app]; [apply NoDup_cons in ND; apply ND|]. intros z Hz. right. exact Hz.
      - (* XUnl1 *) destruct (c_locks s !! p) as [o|] eqn:Ho; [|discriminate]. injection Hst as <- <-. keep. refine (SL agive p o _ Ho _ _ _ _ _ _ _); rewrite ?Epc; try reflexivity. exact Hk.
      - (* XUnl2 *) destruct (c_locks s !! q) as [o|] eqn:Ho; [|discriminate]. injection Hst as <- <-. destruct ok.
        + keep. refine (SL agive_fin q o _ Ho _ _ _ _ _ _); rewrite ?Epc; try reflexivity; destruct op; try contradiction; auto; reflexivity.
        + eapply aagain_give; rewrite ?Epc; eauto.
    Qed.
    Lemma aestep_at s' t' : estep kf hash keq bc E i s t = Some (s', t') -> agood s' t'.
    Proof using HP I Hi Ep.
      pose proof astep_at as HU. unfold estep. pose proof (r_kn s ls F P i t op rest I Hi Ep) as Hk. destruct (c_pc t) eqn:Epc; try (apply HU); cbn [UAnyDefs.akn] in Hk.
      - (* XDesB *) rewrite Ep. destruct (c_values s !! p) as [[v|]|]; try discriminate. intros Hst. injection Hst as <- <-. keep. togo Epc. apply Hk.
      - (* XDes *) rewrite Ep. destruct (c_values s !! p) as [[v|]|]; try discriminate. intros Hst. injection Hst as <- <-. keep. togo Epc; cbn [UAnyDefs.akn].
        + right. split; [reflexivity|]. exists [QPush KPushBack (Z.of_nat p)]. split; [reflexivity|]. intros qo Hqo. apply elem_of_list_singleton in Hqo as ->. reflexivity.
        + split; [exact Hk|]. split; [split; reflexivity|exact Logic.I].
    Qed.
  End steps.
End step.
