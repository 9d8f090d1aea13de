(** Kernels in which one thread erases and any number of threads insert: every step is defined and keeps the invariant (C67). *)
From Verif Require Import Base Conc SlotModel SlotSpec SlotProofs VectorModel VectorProofs VectorConcProofs UnorderedModel UnorderedSpec UnorderedProofs UConcModel UConcSpec UConcProofs UConcEnd UEraseModel UEraseProofs UMixVec UMixShape UOneVec UOneDefs UOneUpd.
From Verif Require UMixKnow.

Section step.
  Context {K V : Type} (kf : V -> K) (hash : K -> Z) (keq : K -> K -> bool) (bc E : nat).
  Hypothesis HP : key_equality keq /\ hash_respects keq hash /\ sizes_ok bc E.
  Context (ie : nat) (M0 : list V).
  Notation n := (bc + E)%nat.
  Notation bkt := (bkt hash bc).
  Notation inC := (inC bc).
  Notation oinv := (oinv kf hash keq bc E ie M0).
  Notation heldt := (heldt kf hash bc).
  Notation thr := (thr kf hash keq bc E ie).
  Notation kn := (kn kf hash keq bc E).
  Notation stored := (stored bc E).
  Notation flat C := (C ≫= (fun l : list nat => l)).
  Notation step := (estep kf hash keq bc E).
  Implicit Types (s : cshared V) (t : cthread K V) (ls : list (cthread K V)) (C : list (list nat)) (F X : list nat) (R : list V) (op : cop K V).
  Local Notation HB := (mx_bkt hash keq bc E HP).

  Section one_step.
    Context s ls C F X R i t op rest (I : oinv s ls C F X R) (Hi : ls !! i = Some t) (Ep : c_prog t = op :: rest).
    Notation b := (bkt (op_key kf op)).
    Lemma s_ops : forall o, o ∈ (c_log t).*1 ++ c_prog t -> isE o -> i = ie.
    Proof using I Hi. apply (o_thr _ _ _ _ _ _ _ _ _ _ _ _ _ I i t Hi). Qed.
    Lemma s_kn : kn s C op (c_pc t).
    Proof using I Hi Ep. destruct (o_thr _ _ _ _ _ _ _ _ _ _ _ _ _ I i t Hi) as [_ T]. rewrite Ep in T. exact T. Qed.
    Lemma s_E : isE op -> i = ie.
    Proof using I Hi Ep. intros H. apply (s_ops op); [rewrite Ep; apply elem_of_app; right; left|exact H]. Qed.
    Lemma s_tb : tb kf hash bc t = b.
    Proof using Ep. unfold tb. rewrite Ep. reflexivity. Qed.
    Lemma s_thr_go s' C' pc : kn s' C' op pc -> thr s' C' i (cgo t pc).
    Proof using I Hi Ep. intros H. split; [exact s_ops|]. cbn [cgo c_prog c_pc]. rewrite Ep. exact H. Qed.
    Lemma s_thr_fin s' C' r : thr s' C' i (cfinish t op r).
    Proof using I Hi Ep. split; [intros o' Ho; apply s_ops; cbn [cfinish c_prog c_log] in Ho; rewrite Ep in Ho |- *; rewrite fmap_app, <- app_assoc in Ho; exact Ho|]. cbn [cfinish c_prog c_pc]. rewrite Ep. cbn. destruct rest; [reflexivity|exact Logic.I]. Qed.
    Lemma s_held pc : heldt (cgo t pc) = held b pc.
    Proof using Ep. unfold UOneDefs.heldt. cbn [cgo c_pc]. change (tb kf hash bc (cgo t pc)) with (tb kf hash bc t). rewrite s_tb. reflexivity. Qed.
    Lemma s_held0 : heldt t = held b (c_pc t).
    Proof using Ep. unfold UOneDefs.heldt. rewrite s_tb. reflexivity. Qed.
    Lemma s_inst pc : leavesI pc = leavesI (c_pc t) -> inst (cgo t pc) = inst t.
    Proof using. unfold inst. cbn [cgo c_pc c_prog c_log]. intros ->. reflexivity. Qed.
    Lemma s_erst pc : leavesE pc = leavesE (c_pc t) -> erst (cgo t pc) = erst t.
    Proof using. unfold erst. cbn [cgo c_pc c_prog c_log]. intros ->. reflexivity. Qed.
    Lemma s_inst_fin r : (match op, r with CInsert v, RInserted _ => leavesI (c_pc t) = true | CInsert v, _ => leavesI (c_pc t) = false | _, _ => True end) -> inst (cfinish t op r) = inst t.
    Proof using Ep.
      intros H. unfold inst. cbn [cfinish c_pc c_prog c_log leavesI]. rewrite Ep. cbn [tail]. assert (Ex : (match rest with CInsert v :: _ => @nil V | _ => [] end) = []) by (destruct rest as [|[]]; reflexivity).
      rewrite Ex, app_nil_r. unfold logI. rewrite omap_app. cbn [omap list_omap]. destruct op as [v|k|k]; [destruct r; rewrite H; reflexivity|destruct r; reflexivity|destruct r; reflexivity].
    Qed.
    Lemma s_erst_fin r : (match op, r with CErase k, RErased true => leavesE (c_pc t) = true | CErase k, _ => leavesE (c_pc t) = false | _, _ => True end) -> erst (cfinish t op r) = erst t.
    Proof using Ep.
      intros H. unfold erst. cbn [cfinish c_pc c_prog c_log leavesE]. rewrite Ep. cbn [tail]. assert (Ex : (match rest with CErase v :: _ => @nil K | _ => [] end) = []) by (destruct rest as [|[]]; reflexivity).
      rewrite Ex, app_nil_r. unfold logE. rewrite omap_app. cbn [omap list_omap]. destruct op as [v|k|k]; [destruct r; reflexivity|destruct r as [| |[]|]; rewrite H; reflexivity|destruct r; reflexivity].
    Qed.

    (** the next access, container as it is *)
    Lemma go pc : hand pc = hand (c_pc t) -> held b pc = held b (c_pc t) -> cpend pc = cpend (c_pc t) -> leavesI pc = leavesI (c_pc t) -> leavesE pc = leavesE (c_pc t) ->
      (proj_at pc = proj_at (c_pc t) \/ (proj_at (c_pc t) = fresh_call [] /\ exists prog, proj_at pc = fresh_call prog /\ forall qo, qo ∈ prog -> op_wf qo)) ->
      kn s C op pc -> oinv s (<[i := cgo t pc]> ls) C F X R.
    Proof using HP I Hi Ep.
      intros H1 H2 H3 H4 H5 H6 H7. apply (upd_same kf hash keq bc E HP ie M0 s ls C F X R i t _ I Hi); auto using s_inst, s_erst.
      - rewrite s_held, s_held0. exact H2.
      - apply s_thr_go. exact H7.
    Qed.
    (** the call returns *)
    Lemma fin r : hand (c_pc t) = [] -> held b (c_pc t) = [] -> cpend (c_pc t) = 0 -> proj_at (c_pc t) = fresh_call [] -> leavesI (c_pc t) = false -> leavesE (c_pc t) = false -> (forall p, r <> RInserted p) -> r <> RErased true ->
      oinv s (<[i := cfinish t op r]> ls) C F X R.
    Proof using HP I Hi Ep.
      intros H1 H2 H3 H4 H5 H6 H7 H8. apply (upd_same kf hash keq bc E HP ie M0 s ls C F X R i t _ I Hi).
      - unfold handt. rewrite H1. reflexivity.
      - rewrite s_held0, H2. reflexivity.
      - unfold pendt. rewrite H3. reflexivity.
      - apply s_inst_fin. destruct op; auto. destruct r; auto. exfalso. eapply H7. reflexivity.
      - apply s_erst_fin. destruct op; auto. destruct r as [| |[]|]; auto; congruence.
      - left. unfold projt. rewrite H4. reflexivity.
      - apply s_thr_fin.
    Qed.
    (** locks *)
    Lemma take x pc : (x < n)%nat -> c_locks s !! x = Some false -> held b pc = x :: held b (c_pc t) \/ held b pc = held b (c_pc t) ++ [x] ->
      hand pc = hand (c_pc t) -> cpend pc = cpend (c_pc t) -> leavesI pc = leavesI (c_pc t) -> leavesE pc = leavesE (c_pc t) -> proj_at pc = proj_at (c_pc t) ->
      kn s C op pc -> oinv (put_lock s x true) (<[i := cgo t pc]> ls) C F X R.
    Proof using HP I Hi Ep.
      intros Hx Hl H1 H2 H3 H4 H5 H6 H7. apply (upd_lock kf hash keq bc E HP ie M0 s ls C F X R i t _ x true I Hi Hx); auto using s_inst, s_erst.
      - split; [unfold SlotProofs.lk; rewrite Hl; reflexivity|]. rewrite s_held, s_held0. destruct H1 as [-> | ->]; [reflexivity|]. symmetry. apply Permutation_cons_append.
      - apply s_thr_go. exact H7.
    Qed.
    Lemma give x pc : (x < n)%nat -> held b (c_pc t) = x :: held b pc ->
      hand pc = hand (c_pc t) -> cpend pc = cpend (c_pc t) -> leavesI pc = leavesI (c_pc t) -> leavesE pc = leavesE (c_pc t) -> proj_at pc = proj_at (c_pc t) ->
      kn s C op pc -> oinv (put_lock s x false) (<[i := cgo t pc]> ls) C F X R.
    Proof using HP I Hi Ep.
      intros Hx H1 H2 H3 H4 H5 H6 H7. apply (upd_lock kf hash keq bc E HP ie M0 s ls C F X R i t _ x false I Hi Hx); auto using s_inst, s_erst.
      - rewrite s_held, s_held0, H1. reflexivity.
      - apply s_thr_go. exact H7.
    Qed.
    Lemma give_fin x r : (x < n)%nat -> held b (c_pc t) = [x] -> hand (c_pc t) = [] -> cpend (c_pc t) = 0 -> proj_at (c_pc t) = fresh_call [] ->
      (match op, r with CInsert v, RInserted _ => leavesI (c_pc t) = true | CInsert v, _ => leavesI (c_pc t) = false | _, _ => True end) ->
      (match op, r with CErase k, RErased true => leavesE (c_pc t) = true | CErase k, _ => leavesE (c_pc t) = false | _, _ => True end) ->
      oinv (put_lock s x false) (<[i := cfinish t op r]> ls) C F X R.
    Proof using HP I Hi Ep.
      intros Hx H1 H2 H3 H4 H5 H6. apply (upd_lock kf hash keq bc E HP ie M0 s ls C F X R i t _ x false I Hi Hx).
      - rewrite s_held0, H1. reflexivity.
      - unfold handt. rewrite H2. reflexivity.
      - unfold pendt. rewrite H3. reflexivity.
      - apply s_inst_fin. exact H5.
      - apply s_erst_fin. exact H6.
      - unfold projt. rewrite H4. reflexivity.
      - apply s_thr_fin.
    Qed.
    Lemma kn_again s' : isI op \/ isE op -> kn s' C op (match op with CInsert _ => UFullCheck | _ => FOcc FEr1 b end).
    Proof using HP I Hi Ep.
      intros H. pose proof (HB (op_key kf op)) as Hb. destruct op; [exact Logic.I| |destruct H as [[]|[]]]. cbn [UOneDefs.kn fk isE]. split; [lia|]. split; [exact Logic.I|]. apply f_on_start.
    Qed.
    Lemma again_go : again t b op = cgo t (match op with CInsert _ => UFullCheck | _ => FOcc FEr1 b end).
    Proof using Ep. destruct op; reflexivity. Qed.

    (** steps of counters *)
    Lemma count d pc : hand pc = hand (c_pc t) -> held b pc = held b (c_pc t) -> cpend pc = cpend (c_pc t) + d -> leavesI pc = leavesI (c_pc t) -> leavesE pc = leavesE (c_pc t) -> proj_at pc = proj_at (c_pc t) ->
      kn s C op pc -> oinv (put_count s (c_count s + d)) (<[i := cgo t pc]> ls) C F X R.
    Proof using HP I Hi Ep.
      intros H1 H2 H3 H4 H5 H6 H7. refine (upd_cells kf hash keq bc E HP ie M0 s ls C F X R i t (put_count s (c_count s + d)) _ F X I Hi eq_refl eq_refl eq_refl eq_refl _ _ _ _ _ _ _ _ _).
      - unfold handt. cbn [cgo c_pc]. rewrite H1. reflexivity.
      - exact (o_free _ _ _ _ _ _ _ _ _ _ _ _ _ I).
      - intros x. rewrite s_held, s_held0, H2. reflexivity.
      - unfold pendt. cbn [cgo c_pc put_count c_count]. lia.
      - unfold projt at 1. cbn [cgo c_pc]. rewrite H6. rewrite list_insert_id by (rewrite list_lookup_fmap, Hi; reflexivity). exact (o_vec _ _ _ _ _ _ _ _ _ _ _ _ _ I).
      - apply s_inst. exact H4.
      - apply s_erst. exact H5.
      - auto.
      - apply s_thr_go. exact H7.
    Qed.
    Lemma own_head pc : c_pc t = pc -> b ∈ held b pc -> own kf hash bc C t b.
    Proof using HP Ep. intros H1 H2. right. rewrite s_held0, H1. split; [exact H2|left; apply HB]. Qed.
    Lemma others_values x v : own kf hash bc C t x -> forall j u, j <> i -> ls !! j = Some u -> thr (put_value s x (Some v)) C j u.
    Proof using HP I Hi.
      intros Ho. refine (others kf hash keq bc E HP ie M0 s ls C F X R i t (put_value s x (Some v)) C x I Hi Ho _ _ _ _ _ eq_refl).
      - intros y Hy. cbn. rewrite list_lookup_insert_ne by congruence. auto.
      - intros y [w Hw]. destruct (decide (x = y)) as [<- |Hne]; [exists v; cbn; apply list_lookup_insert; eapply lookup_lt_Some; exact Hw|exists w; cbn; rewrite list_lookup_insert_ne by exact Hne; exact Hw].
      - auto.
      - intros y e H. right. exact H.
      - intros _. apply ext_refl.
    Qed.
    Lemma others_occ x o : own kf hash bc C t x -> forall j u, j <> i -> ls !! j = Some u -> thr (put_occ s x o) C j u.
    Proof using HP I Hi.
      intros Ho. refine (others kf hash keq bc E HP ie M0 s ls C F X R i t (put_occ s x o) C x I Hi Ho _ _ _ _ _ eq_refl).
      - intros y Hy. cbn. rewrite list_lookup_insert_ne by congruence. auto.
      - auto.
      - auto.
      - intros y e H. right. exact H.
      - intros _. apply ext_refl.
    Qed.
    (** a value is constructed in an entry that is not occupied *)
    Lemma construct x v pc : own kf hash bc C t x -> c_occ s !! x = Some false -> hand pc = hand (c_pc t) -> held b pc = held b (c_pc t) -> cpend pc = cpend (c_pc t) -> leavesI pc = leavesI (c_pc t) -> leavesE pc = leavesE (c_pc t) -> proj_at pc = proj_at (c_pc t) ->
      kn (put_value s x (Some v)) C op pc -> oinv (put_value s x (Some v)) (<[i := cgo t pc]> ls) C F X R.
    Proof using HP I Hi Ep.
      intros Ho Hx H1 H2 H3 H4 H5 H6 H7. pose proof (o_len _ _ _ _ _ _ _ _ _ _ _ _ _ I) as (A1 & A2 & A3 & A4 & A5).
      assert (Hn : (x < n)%nat) by (rewrite <- A3; eapply lookup_lt_Some; exact Hx).
      assert (Es : stored (put_value s x (Some v)) = stored s).
      { unfold UOneDefs.stored. apply list_omap_ext. apply Forall_Forall2_diag. apply Forall_forall. intros y _. unfold sv. cbn [put_value c_values c_occ]. destruct (decide (x = y)) as [<- |Hne]; [rewrite Hx; reflexivity|rewrite list_lookup_insert_ne by exact Hne; reflexivity]. }
      refine (upd kf hash keq bc E HP ie M0 s ls C F X R i t (put_value s x (Some v)) _ C F X R I Hi _ _ _ _ _ _ _ _ _ _ _ _ _ _).
      - cbn. rewrite insert_length. auto.
      - unfold handt. cbn [cgo c_pc]. rewrite H1. reflexivity.
      - exact (o_link _ _ _ _ _ _ _ _ _ _ _ _ _ I).
      - exact (o_occ _ _ _ _ _ _ _ _ _ _ _ _ _ I).
      - exact (o_free _ _ _ _ _ _ _ _ _ _ _ _ _ I).
      - intros y Hy. destruct (o_val _ _ _ _ _ _ _ _ _ _ _ _ _ I y Hy) as [w Hw]. exists w. cbn. rewrite list_lookup_insert_ne; [exact Hw|]. intros ->. cbn in Hy. congruence.
      - exact (o_off _ _ _ _ _ _ _ _ _ _ _ _ _ I).
      - intros y. rewrite s_held, s_held0, H2. reflexivity.
      - rewrite Es. unfold pendt. cbn [cgo c_pc put_value c_count]. lia.
      - unfold projt at 1. cbn [cgo c_pc]. rewrite H6. rewrite list_insert_id by (rewrite list_lookup_fmap, Hi; reflexivity). exact (o_vec _ _ _ _ _ _ _ _ _ _ _ _ _ I).
      - rewrite Es, (s_inst pc H4). reflexivity.
      - right. split; [reflexivity|apply s_erst; exact H5].
      - apply others_values. exact Ho.
      - apply s_thr_go. exact H7.
    Qed.
    Lemma stored_occ x v o : c_values s !! x = Some (Some v) -> (exists o0, c_occ s !! x = Some o0) -> exists A B, stored s = A ++ (if default false (c_occ s !! x) then [v] else []) ++ B /\ stored (put_occ s x o) = A ++ (if o : bool then [v] else []) ++ B.
    Proof using I.
      intros Hv [o0 Ho]. pose proof (o_len _ _ _ _ _ _ _ _ _ _ _ _ _ I) as (A1 & A2 & A3 & A4 & A5).
      destruct (stored_split bc E s x) as (A & B & HS); [rewrite <- A1; eapply lookup_lt_Some; exact Hv|exact A1|exact A3|]. exists A, B.
      assert (Ev : forall o1, put_occ (put_value s x (Some v)) x o1 = put_occ s x o1) by (intros o1; unfold put_occ, put_value; cbn; rewrite (list_insert_id _ _ _ Hv); reflexivity).
      assert (Eo : put_occ s x o0 = s) by (unfold put_occ; rewrite (list_insert_id _ _ _ Ho); destruct s; reflexivity).
      unfold UOneDefs.stored. pose proof (HS (Some v) o0) as H0. pose proof (HS (Some v) o) as H1. rewrite Ev in H0, H1. rewrite Eo in H0. rewrite H0, H1, Ho. cbn. auto.
    Qed.
    (** the bit that makes the value of an insert visible *)
    Lemma occupy x v pc : own kf hash bc C t x -> op = CInsert v -> c_values s !! x = Some (Some v) -> c_occ s !! x = Some false ->
      hand pc = hand (c_pc t) -> held b pc = held b (c_pc t) -> cpend (c_pc t) = 1 -> cpend pc = 0 -> leavesI pc = true -> leavesI (c_pc t) = false -> proj_at pc = proj_at (c_pc t) ->
      kn (put_occ s x true) C op pc -> oinv (put_occ s x true) (<[i := cgo t pc]> ls) C F X R.
    Proof using HP I Hi Ep.
      intros Ho Eop Hv Hx H1 H2 H3 H3' H4 H4' H6 H7. pose proof (o_len _ _ _ _ _ _ _ _ _ _ _ _ _ I) as (A1 & A2 & A3 & A4 & A5).
      assert (Hn : (x < n)%nat) by (rewrite <- A3; eapply lookup_lt_Some; exact Hx).
      assert (Hself : forall y o, c_occ (put_occ s x true) !! y = Some o -> (x = y /\ o = true) \/ (x <> y /\ c_occ s !! y = Some o)).
      { intros y o Hy. cbn in Hy. apply list_lookup_insert_Some in Hy as [(H & H' & _)|[H H']]; auto. }
      assert (HxF : x ∉ F). { intros HF. destruct Ho as [Hh|[_ Hin]]; [apply (f_hand kf hash keq bc E ie M0 s ls C F X R I i t x Hi Hh); exact HF|]. destruct Hin as [Hin|Hin].
        - assert (x ∈ flat C ++ (ls ≫= handt) ++ F ++ X) by (rewrite !elem_of_app; auto). apply (f_range kf hash keq bc E ie M0 s ls C F X R I) in H. lia.
        - pose proof (f_nodup kf hash keq bc E ie M0 s ls C F X R I) as ND. apply NoDup_app in ND as (_ & ND & _). apply (ND x Hin). rewrite !elem_of_app. auto. }
      destruct (stored_occ x v true Hv (ex_intro _ _ Hx)) as (SA & SB & S1 & S2). rewrite Hx in S1. cbn in S1.
      refine (upd kf hash keq bc E HP ie M0 s ls C F X R i t (put_occ s x true) _ C F X R I Hi _ _ _ _ _ _ _ _ _ _ _ _ _ _).
      - cbn. rewrite insert_length. auto.
      - unfold handt. cbn [cgo c_pc]. rewrite H1. reflexivity.
      - exact (o_link _ _ _ _ _ _ _ _ _ _ _ _ _ I).
      - intros y Hy. cbn. destruct (decide (x = y)) as [<- |Hne]; [apply list_lookup_insert; lia|rewrite list_lookup_insert_ne by exact Hne; exact (o_occ _ _ _ _ _ _ _ _ _ _ _ _ _ I y Hy)].
      - intros y Hy. cbn. rewrite list_lookup_insert_ne by (intros ->; contradiction). exact (o_free _ _ _ _ _ _ _ _ _ _ _ _ _ I y Hy).
      - intros y Hy. destruct (Hself y true Hy) as [[<- _]|[_ Hy']]; [exists v; exact Hv|exact (o_val _ _ _ _ _ _ _ _ _ _ _ _ _ I y Hy')].
      - exact (o_off _ _ _ _ _ _ _ _ _ _ _ _ _ I).
      - intros y. rewrite s_held, s_held0, H2. reflexivity.
      - rewrite S1, S2. unfold pendt. cbn [cgo c_pc put_occ c_count]. rewrite H3, H3', !app_length. cbn. lia.
      - unfold projt at 1. cbn [cgo c_pc]. rewrite H6. rewrite list_insert_id by (rewrite list_lookup_fmap, Hi; reflexivity). exact (o_vec _ _ _ _ _ _ _ _ _ _ _ _ _ I).
      - rewrite S1, S2. unfold inst. cbn [cgo c_pc c_prog c_log]. rewrite Ep, Eop, H4, H4'. cbn [app]. solve_Permutation.
      - right. split; [reflexivity|]. unfold erst. cbn [cgo c_pc c_prog c_log]. rewrite Ep, Eop. reflexivity.
      - apply others_occ. exact Ho.
      - apply s_thr_go. exact H7.
    Qed.
    (** the bit that takes a value away *)
    Lemma vacate x k pc : own kf hash bc C t x -> ~ (x ∈ flat C) -> op = CErase k -> hit kf keq s x k -> c_occ s !! x = Some true ->
      hand pc = hand (c_pc t) -> held b pc = held b (c_pc t) -> cpend (c_pc t) = 0 -> cpend pc = 1 -> leavesE pc = true -> leavesE (c_pc t) = false -> proj_at pc = proj_at (c_pc t) ->
      kn (put_occ s x false) C op pc -> exists R', oinv (put_occ s x false) (<[i := cgo t pc]> ls) C F X R'.
    Proof using HP I Hi Ep.
      intros Ho HxC Eop (v & Hv & Hkv) Hx H1 H2 H3 H3' H4 H4' H6 H7. pose proof (o_len _ _ _ _ _ _ _ _ _ _ _ _ _ I) as (A1 & A2 & A3 & A4 & A5). exists (R ++ [v]).
      assert (Hn : (x < n)%nat) by (rewrite <- A3; eapply lookup_lt_Some; exact Hx).
      destruct (stored_occ x v false Hv (ex_intro _ _ Hx)) as (SA & SB & S1 & S2). rewrite Hx in S1. cbn in S1.
      refine (upd kf hash keq bc E HP ie M0 s ls C F X R i t (put_occ s x false) _ C F X (R ++ [v]) I Hi _ _ _ _ _ _ _ _ _ _ _ _ _ _).
      - cbn. rewrite insert_length. auto.
      - unfold handt. cbn [cgo c_pc]. rewrite H1. reflexivity.
      - exact (o_link _ _ _ _ _ _ _ _ _ _ _ _ _ I).
      - intros y Hy. cbn. rewrite list_lookup_insert_ne by (intros ->; contradiction). exact (o_occ _ _ _ _ _ _ _ _ _ _ _ _ _ I y Hy).
      - intros y Hy. cbn. destruct (decide (x = y)) as [<- |Hne]; [apply list_lookup_insert; lia|rewrite list_lookup_insert_ne by exact Hne; exact (o_free _ _ _ _ _ _ _ _ _ _ _ _ _ I y Hy)].
      - intros y Hy. cbn in Hy. apply list_lookup_insert_Some in Hy as [(_ & H & _)|[_ H]]; [discriminate|exact (o_val _ _ _ _ _ _ _ _ _ _ _ _ _ I y H)].
      - exact (o_off _ _ _ _ _ _ _ _ _ _ _ _ _ I).
      - intros y. rewrite s_held, s_held0, H2. reflexivity.
      - rewrite S1, S2. unfold pendt. cbn [cgo c_pc put_occ c_count]. rewrite H3, H3', !app_length. cbn. lia.
      - unfold projt at 1. cbn [cgo c_pc]. rewrite H6. rewrite list_insert_id by (rewrite list_lookup_fmap, Hi; reflexivity). exact (o_vec _ _ _ _ _ _ _ _ _ _ _ _ _ I).
      - rewrite S1, S2. unfold inst. cbn [cgo c_pc c_prog c_log]. rewrite Ep, Eop. cbn [app]. solve_Permutation.
      - left. assert (Hie : i = ie) by (apply s_E; rewrite Eop; exact Logic.I). split; [exact Hie|]. pose proof (o_rem _ _ _ _ _ _ _ _ _ _ _ _ _ I) as HR. unfold erasedL in HR. rewrite <- Hie, Hi in HR. unfold erst in HR |- *. cbn [cgo c_pc c_prog c_log]. rewrite Ep, Eop in *. rewrite H4' in HR. rewrite H4. rewrite app_nil_r in HR. apply Forall2_app; [exact HR|]. constructor; [exact Hkv|constructor].
      - apply others_occ. exact Ho.
      - apply s_thr_go. exact H7.
    Qed.
  End one_step.
End step.
