(** Kernels in which any number of threads insert, erase and look keys up: the invariant that says that nothing is lost from the arrays (C79). *)
From Verif Require Import Base Conc SlotModel SlotSpec SlotProofs VectorModel VectorProofs VectorConcProofs UnorderedModel UnorderedSpec UnorderedProofs UConcModel UConcSpec UConcProofs UConcEnd UEraseModel UEraseProofs UMixVec UMixShape UOneVec UOneDefs UOneUpd UAnyVec.

Lemma perm_nodup {A} (l l' : list A) : l ≡ₚ l' -> NoDup l -> NoDup l'.
Proof. intros ->. auto. Qed.
Lemma bind_split_at {A B} (f : A -> list B) (l : list A) b x : l !! b = Some x ->
  exists rest, l ≫= f ≡ₚ f x ++ rest /\ (forall y, <[b:=y]> l ≫= f ≡ₚ f y ++ rest) /\ (forall e, e ∈ rest -> exists b' z, b' <> b /\ l !! b' = Some z /\ e ∈ f z).
Proof.
  intros H. pose proof (lookup_lt_Some _ _ _ H) as Hlt.
  assert (HS : forall y, (take b l ++ y :: drop (S b) l) ≫= f ≡ₚ f y ++ ((take b l ≫= f) ++ (drop (S b) l ≫= f))).
  { intros y. rewrite bind_app. cbn [mbind list_bind]. rewrite !app_assoc. f_equiv. apply Permutation_app_comm. }
  exists ((take b l ≫= f) ++ (drop (S b) l ≫= f)). split; [|split].
  - rewrite <- (HS x). rewrite take_drop_middle by exact H. reflexivity.
  - intros y. rewrite insert_take_drop by exact Hlt. apply HS.
  - intros e He. apply elem_of_app in He as [He|He]; apply elem_of_list_bind in He as (z & He & Hz); apply elem_of_list_lookup in Hz as [k Hk].
    + apply lookup_take_Some in Hk as [Hk Hlk]. exists k, z. split; [lia|auto].
    + rewrite lookup_drop in Hk. exists (S b + k)%nat, z. split; [lia|auto].
Qed.

Section any.
  Context {K V : Type} (kf : V -> K) (hash : K -> Z) (keq : K -> K -> bool) (bc E : nat).
  Hypothesis HP : key_equality keq /\ hash_respects keq hash /\ sizes_ok bc E.
  Context (M0 : list V).
  Notation n := (bc + E)%nat.
  Notation bkt := (bkt hash bc).
  Notation heldt := (heldt kf hash bc).
  Notation stored := (stored bc E).
  Implicit Types (s : cshared V) (t : cthread K V) (ls : list (cthread K V)) (F : list nat) (P : list (V * K)) (op : cop K V).
  Local Notation HB := (mx_bkt hash keq bc E HP).

  (** entries that only this thread knows: popped from the vector of free entries and not yet made visible, or taken out and not yet pushed *)
  Definition hnd (pc : upc) : list nat :=
    match pc with
    | IConL _ p | IOffL _ p | ICntL _ p | ISetL _ p => [p]
    | XCnt p _ | XDes p _ | XPush p _ _ => [p]
    | _ => []
    end.
  Definition hndt t : list nat := hnd (c_pc t).

  (** what a thread knows *)
  Definition afk op (c : fctx) : Prop :=
    match c with
    | FUser => isF op
    | FIns1 | FInsB | FInsL _ _ => isI op
    | FEr1 => isE op
    | FErB p => isE op /\ p = bkt (op_key kf op)
    | FErL p _ => isE op /\ p <> bkt (op_key kf op)
    end.
  Definition apk s op (c : pctx) : Prop :=
    match c with
    | PEr1 p => p <> bkt (op_key kf op)
    | PEr2 p q same => p <> bkt (op_key kf op) /\ (same = true -> c_occ s !! p = Some true /\ hit kf keq s p (op_key kf op))
    end.
  Definition akn s op (pc : upc) : Prop :=
    let b := bkt (op_key kf op) in
    match pc with
    | UIdle => True
    | UFullCheck | UEmptyCheck | IOcc | ILockB | IOccB | IUnlB _ | ILockL _ | EOff _ _ | EAdd _ _ | IConL _ _ | ILinkL _ _ | IUnlL _ _ => isI op
    | FOcc c _ | FOff c _ | FAdd c _ => afk op c
    | FVal c x => afk op c /\ match c with FErB p | FErL p _ => x = p -> c_occ s !! p = Some true | _ => True end
    | POff c _ _ | PAdd c _ _ => isE op /\ apk s op c
    | IConB => isI op /\ c_occ s !! b = Some false
    | ICntB | ISetB => own_value s op b /\ c_occ s !! b = Some false
    | IPop _ q => isI op /\ popping q
    | IOffL _ p | ICntL _ p | ISetL _ p => own_value s op p
    | XLockB p => isE op /\ p = b
    | XResetB p => isE op /\ p = b /\ c_occ s !! p = Some true /\ hit kf keq s p (op_key kf op)
    | XCntB p | XDesB p => isE op /\ p = b /\ c_occ s !! p = Some false
    | XUnlB p _ => isE op
    | XLock1 p _ | XLock2 p _ => isE op /\ p <> b
    | XTest p _ | XAdd1 p _ | XAdd2 p _ _ | XPut p _ _ | XReset p _ => isE op /\ p <> b /\ c_occ s !! p = Some true /\ hit kf keq s p (op_key kf op)
    | XPush p _ x => isE op /\ pushing_of p x /\ written (c_ex s) x
    | XCnt _ _ | XDes _ _ | XBack _ | XUnl1 _ _ _ | XUnl2 _ _ => isE op
    end.
  Definition athr s t : Prop := match c_prog t with [] => c_pc t = UIdle | op :: _ => akn s op (c_pc t) end.

  Record ainv s ls F P : Prop := {
    a_len : length (c_values s) = n /\ length (c_occ s) = n /\ length (c_locks s) = n;
    a_nodup : NoDup ((ls ≫= hndt) ++ F);
    a_free : forall x, x ∈ (ls ≫= hndt) ++ F -> (bc <= x)%nat /\ c_occ s !! x = Some false;
    a_val : forall x, c_occ s !! x = Some true -> some_at s x;
    a_head : forall x v, (x < bc)%nat -> c_occ s !! x = Some true -> c_values s !! x = Some (Some v) -> bkt (kf v) = x;
    a_lock : forall x, Z.b2z (SlotProofs.lk (c_locks s) x) = sumZ (fun t => sumZ (SlotProofs.at_ x) (heldt t)) ls;
    a_count : c_count s = Z.of_nat (length (stored s)) + sumZ pendt ls;
    a_vec : inv (T:=Z) (C:=Z) E vm (fun _ => True) (fun w => sumZ w (Z.of_nat <$> F)) (c_ex s) (projt <$> ls);
    a_cons : stored s ++ P.*1 ≡ₚ M0 ++ (ls ≫= inst);
    a_rem : P.*2 ≡ₚ ls ≫= erst;
    a_keq : Forall (fun x => keq (kf x.1) x.2 = true) P;
    a_thr : forall i t, ls !! i = Some t -> athr s t
  }.

  Section facts.
    Context s ls F P (I : ainv s ls F P).
    Lemma g_hand i t x : ls !! i = Some t -> x ∈ hndt t -> (bc <= x)%nat /\ c_occ s !! x = Some false.
    Proof using I. intros Hi Hx. apply (a_free _ _ _ _ I). apply elem_of_app. left. apply elem_of_list_bind. exists t. split; [exact Hx|eapply elem_of_list_lookup_2; exact Hi]. Qed.
    Lemma g_held i t x : ls !! i = Some t -> x ∈ heldt t -> SlotProofs.lk (c_locks s) x = true.
    Proof using I.
      intros Hi Hx. pose proof (a_lock _ _ _ _ I x) as HL. pose proof (sumZ_ge_elem (fun t => sumZ (SlotProofs.at_ x) (heldt t)) ls i t) as H. cbn beta in H.
      assert (Hn : forall l, l ∈ ls -> 0 <= sumZ (SlotProofs.at_ x) (heldt l)) by (intros l _; apply sumZ_nonneg; intros; apply at_nonneg). specialize (H Hn Hi). pose proof (at_elem x _ Hx). destruct (SlotProofs.lk (c_locks s) x); [reflexivity|cbn in HL; lia].
    Qed.
    (** what a thread may change, and what no other thread changes: entries in its hand; entries of which it has the lock, if they are occupied or heads *)
    Definition aown t (x : nat) : Prop := x ∈ hndt t \/ (x ∈ heldt t /\ (c_occ s !! x = Some true \/ (x < bc)%nat)).
    Lemma g_excl i j t u x : i <> j -> ls !! i = Some t -> ls !! j = Some u -> aown t x -> aown u x -> False.
    Proof using I.
      intros Hij Hi Hj [H1|[H1 H2]] [H3|[H3 H4]].
      - destruct (bind_split hndt ls i t Hi) as (rest & E1 & _ & E3). pose proof (E3 j u x (not_eq_sym Hij) Hj H3) as Hr. pose proof (a_nodup _ _ _ _ I) as ND. apply NoDup_app in ND as (ND & _ & _). rewrite E1 in ND. apply NoDup_app in ND as (_ & ND & _). apply (ND x H1). exact Hr.
      - destruct (g_hand i t x Hi H1) as [H5 H6]. destruct H4 as [H4|H4]; [congruence|lia].
      - destruct (g_hand j u x Hj H3) as [H5 H6]. destruct H2 as [H4|H4]; [congruence|lia].
      - pose proof (a_lock _ _ _ _ I x) as HL. assert (Hn : forall l, l ∈ ls -> 0 <= sumZ (SlotProofs.at_ x) (heldt l)) by (intros l _; apply sumZ_nonneg; intros; apply at_nonneg).
        pose proof (sumZ_ge_two (fun t => sumZ (SlotProofs.at_ x) (heldt t)) ls i j t u Hn Hij Hi Hj) as H. cbn beta in H. pose proof (at_elem x _ H1). pose proof (at_elem x _ H3). destruct (SlotProofs.lk (c_locks s) x); cbn in HL; lia.
    Qed.
    Lemma g_vany q : q ∈ projt <$> ls -> vany (c_ex s) q.
    Proof using I.
      intros Hq. apply elem_of_list_fmap in Hq as (t & -> & Ht). apply elem_of_list_lookup in Ht as [j Hj]. pose proof (a_thr _ _ _ _ I j t Hj) as T2. unfold athr in T2. unfold projt. destruct (c_prog t) as [|op rest] eqn:Ep.
      - rewrite T2. left. reflexivity.
      - destruct (c_pc t) eqn:Epc; try (left; reflexivity); cbn [proj_at]; cbn [akn] in T2.
        + right. left. apply T2.
        + right. right. destruct T2 as (H1 & H2 & H3). split; [eauto|exact H3].
    Qed.
  End facts.

  (** *** what another thread knows stays true *)
  Lemma akn_stable s s' op pc :
    (forall x, x ∈ hnd pc \/ (x ∈ held (bkt (op_key kf op)) pc /\ (c_occ s !! x = Some true \/ (x < bc)%nat)) -> c_values s' !! x = c_values s !! x /\ c_occ s' !! x = c_occ s !! x) ->
    (written (c_ex s) (proj_at pc) -> written (c_ex s') (proj_at pc)) ->
    akn s op pc -> akn s' op pc.
  Proof using HP.
    intros Hcell Hw. pose proof (HB (op_key kf op)) as Hb. set (b := bkt (op_key kf op)) in *.
    assert (Hown : forall x, own_value s op x -> c_values s' !! x = c_values s !! x -> own_value s' op x) by (intros x; unfold own_value; destruct op; auto; intros H ->; exact H).
    assert (Hhit : forall x k, c_occ s !! x = Some true /\ hit kf keq s x k -> c_values s' !! x = c_values s !! x /\ c_occ s' !! x = c_occ s !! x -> c_occ s' !! x = Some true /\ hit kf keq s' x k) by (intros x k (H0 & v & H1 & H2) [H3 H4]; split; [congruence|]; exists v; rewrite H3; auto).
    assert (Hpk : forall c, isE op -> (forall p q same, c = PEr2 p q same -> p ∈ held b pc) -> apk s op c -> apk s' op c).
    { intros c He Hh. destruct c as [p|p q same]; cbn [apk]; [auto|]. intros [H1 H2]. split; [exact H1|]. intros Hs. apply Hhit; [auto|]. apply Hcell. right. split; [eapply Hh; reflexivity|]. left. apply H2. exact Hs. }
    destruct pc; cbn [akn]; try (fold b); auto.
    - (* FVal *) intros [H1 H2]. split; [exact H1|]. destruct c; auto.
      + intros Hx. destruct (Hcell p) as [_ ->]; [|apply H2; exact Hx]. right. split; [left|]. left. apply H2. exact Hx.
      + intros Hx. destruct (Hcell p) as [_ ->]; [|apply H2; exact Hx]. right. split; [left|]. left. apply H2. exact Hx.
    - intros [H1 H2]. split; [exact H1|]. apply Hpk; auto. intros p q same ->. left.
    - intros [H1 H2]. split; [exact H1|]. apply Hpk; auto. intros p q same ->. left.
    - (* IConB *) intros [H1 H2]. destruct (Hcell b) as [_ ->]; [right; split; [left|auto]|]. auto.
    - intros [H1 H2]. destruct (Hcell b) as [Ev ->]; [right; split; [left|auto]|]. auto.
    - intros [H1 H2]. destruct (Hcell b) as [Ev ->]; [right; split; [left|auto]|]. auto.
    - intros H. apply Hown; [exact H|]. apply Hcell. left. left.
    - intros H. apply Hown; [exact H|]. apply Hcell. left. left.
    - intros H. apply Hown; [exact H|]. apply Hcell. left. left.
    - (* XResetB *) intros (H1 & H2 & H3). split; [exact H1|]. split; [exact H2|]. apply Hhit; [exact H3|]. apply Hcell. right. split; [left|]. left. apply H3.
    - intros (H1 & -> & H3). destruct (Hcell b) as [_ ->]; [right; split; [left|auto]|]. auto.
    - intros (H1 & -> & H3). destruct (Hcell b) as [_ ->]; [right; split; [left|auto]|]. auto.
    - intros (H1 & H2 & H3). split; [exact H1|]. split; [exact H2|]. apply Hhit; [exact H3|]. apply Hcell. right. split; [left|]. left. apply H3.
    - intros (H1 & H2 & H3). split; [exact H1|]. split; [exact H2|]. apply Hhit; [exact H3|]. apply Hcell. right. split; [left|]. left. apply H3.
    - intros (H1 & H2 & H3). split; [exact H1|]. split; [exact H2|]. apply Hhit; [exact H3|]. apply Hcell. right. split; [left|]. left. apply H3.
    - intros (H1 & H2 & H3). split; [exact H1|]. split; [exact H2|]. apply Hhit; [exact H3|]. apply Hcell. right. split; [left|]. left. apply H3.
    - intros (H1 & H2 & H3). split; [exact H1|]. split; [exact H2|]. apply Hhit; [exact H3|]. apply Hcell. right. split; [left|]. left. apply H3.
    - (* XPush *) intros (H1 & H2 & H3). auto.
  Qed.

  (** *** one step *)
  Lemma aupd s ls F P i t s' t' F' P' : ainv s ls F P -> ls !! i = Some t ->
    length (c_values s') = length (c_values s) /\ length (c_occ s') = length (c_occ s) /\ length (c_locks s') = length (c_locks s) ->
    (forall y, ~ aown s t y -> c_values s' !! y = c_values s !! y /\ c_occ s' !! y = c_occ s !! y) ->
    NoDup (hndt t' ++ F') ->
    (forall x, x ∈ hndt t' ++ F' -> (x ∈ hndt t ++ F \/ c_occ s !! x = Some true) /\ (bc <= x)%nat /\ c_occ s' !! x = Some false) ->
    (forall x, c_occ s' !! x = Some true -> some_at s' x) ->
    (forall x v, (x < bc)%nat -> c_occ s' !! x = Some true -> c_values s' !! x = Some (Some v) -> bkt (kf v) = x) ->
    (forall x, Z.b2z (SlotProofs.lk (c_locks s') x) + sumZ (SlotProofs.at_ x) (heldt t) = Z.b2z (SlotProofs.lk (c_locks s) x) + sumZ (SlotProofs.at_ x) (heldt t')) ->
    c_count s' + Z.of_nat (length (stored s)) + pendt t = c_count s + Z.of_nat (length (stored s')) + pendt t' ->
    inv (T:=Z) (C:=Z) E vm (fun _ => True) (fun w => sumZ w (Z.of_nat <$> F')) (c_ex s') (<[i := projt t']> (projt <$> ls)) ->
    stored s' ++ P'.*1 ++ inst t ≡ₚ stored s ++ P.*1 ++ inst t' ->
    P'.*2 ++ erst t ≡ₚ P.*2 ++ erst t' ->
    Forall (fun x => keq (kf x.1) x.2 = true) P' ->
    (forall j u, j <> i -> ls !! j = Some u -> written (c_ex s) (projt u) -> written (c_ex s') (projt u)) ->
    athr s' t' ->
    ainv s' (<[i := t']> ls) F' P'.
  Proof using HP.
    intros I Hi (L1 & L3 & L4) Hcell HN HF HV HH HLk HCn HVec HCs HR HK Hw HSelf.
    assert (Hlt : (i < length ls)%nat) by (eapply lookup_lt_Some; exact Hi).
    destruct (bind_split_at hndt ls i t Hi) as (rest & E1 & E2 & Hrest).
    assert (Hsame : forall x, x ∈ rest -> x ∉ hndt t ++ F /\ (bc <= x)%nat /\ c_occ s !! x = Some false /\ c_occ s' !! x = Some false).
    { intros x Hx. destruct (Hrest x Hx) as (j & u & Hj & Hu & Hxu). destruct (g_hand s ls F P I j u x Hu Hxu) as [H1 H2].
      pose proof (a_nodup _ _ _ _ I) as ND. rewrite E1 in ND. split.
      - intros Hin. assert (ND' : NoDup (rest ++ (hndt t ++ F))) by (eapply perm_nodup; [|exact ND]; solve_Permutation). apply NoDup_app in ND' as (_ & ND' & _). exact (ND' x Hx Hin).
      - split; [exact H1|]. split; [exact H2|]. destruct (Hcell x) as [_ ->]; [|exact H2]. intros Ho. apply (g_excl s ls F P I i j t u x (not_eq_sym Hj) Hi Hu Ho). left. exact Hxu. }
    split.
    - destruct (a_len _ _ _ _ I) as (A1 & A3 & A4). repeat split; congruence.
    - rewrite (E2 t'). eapply (perm_nodup (rest ++ (hndt t' ++ F'))); [solve_Permutation|]. apply NoDup_app. split; [|split; [|exact HN]].
      + pose proof (a_nodup _ _ _ _ I) as ND. rewrite E1 in ND. apply NoDup_app in ND as (ND & _ & _). apply NoDup_app in ND as (_ & _ & ND). exact ND.
      + intros x Hx Hx'. destruct (Hsame x Hx) as (S1 & S2 & S3 & S4). destruct (HF x Hx') as [[H|H] _]; [contradiction|congruence].
    - intros x. rewrite (E2 t'), <- app_assoc. rewrite !elem_of_app. intros [Hx|[Hx|Hx]].
      + apply HF. apply elem_of_app. auto.
      + destruct (Hsame x Hx) as (S1 & S2 & S3 & S4). auto.
      + apply HF. apply elem_of_app. auto.
    - exact HV.
    - exact HH.
    - intros x. rewrite (sumZ_insert _ _ _ _ _ Hi). cbn beta. pose proof (a_lock _ _ _ _ I x) as H. pose proof (HLk x). lia.
    - rewrite (sumZ_insert _ _ _ _ _ Hi). pose proof (a_count _ _ _ _ I). lia.
    - rewrite list_fmap_insert. exact HVec.
    - pose proof (a_cons _ _ _ _ I) as HC. destruct (bind_split inst ls i t Hi) as (rest' & E1' & E2' & _). rewrite E1' in HC. rewrite (E2' t').
      apply (Permutation_app_inv_r (inst t)). rewrite <- app_assoc, HCs, app_assoc, HC. solve_Permutation.
    - pose proof (a_rem _ _ _ _ I) as HC. destruct (bind_split erst ls i t Hi) as (rest' & E1' & E2' & _). rewrite E1' in HC. rewrite (E2' t').
      apply (Permutation_app_inv_r (erst t)). rewrite HR, HC. solve_Permutation.
    - exact HK.
    - intros j u Hj. destruct (decide (i = j)) as [<- |Hne]; [rewrite list_lookup_insert in Hj by exact Hlt; injection Hj as <-; exact HSelf|]. rewrite list_lookup_insert_ne in Hj by exact Hne.
      pose proof (a_thr _ _ _ _ I j u Hj) as T. unfold athr in *. destruct (c_prog u) as [|op r] eqn:Ep; [exact T|].
      assert (Eh : held (bkt (op_key kf op)) (c_pc u) = heldt u) by (unfold UOneDefs.heldt, tb; rewrite Ep; reflexivity).
      refine (akn_stable s s' op (c_pc u) _ _ T).
      + intros y Hy. rewrite Eh in Hy. apply Hcell. intros Ho. exact (g_excl s ls F P I i j t u y Hne Hi Hj Ho Hy).
      + apply (Hw j u); [congruence|exact Hj].
  Qed.
  (** steps that leave values and occupied bits as they are *)
  Lemma aupd_cells s ls F P i t s' t' F' : ainv s ls F P -> ls !! i = Some t ->
    c_values s' = c_values s -> c_occ s' = c_occ s -> length (c_locks s') = length (c_locks s) ->
    NoDup (hndt t' ++ F') -> (forall x, x ∈ hndt t' ++ F' -> x ∈ hndt t ++ F) ->
    (forall x, Z.b2z (SlotProofs.lk (c_locks s') x) + sumZ (SlotProofs.at_ x) (heldt t) = Z.b2z (SlotProofs.lk (c_locks s) x) + sumZ (SlotProofs.at_ x) (heldt t')) ->
    c_count s' + pendt t = c_count s + pendt t' ->
    inv (T:=Z) (C:=Z) E vm (fun _ => True) (fun w => sumZ w (Z.of_nat <$> F')) (c_ex s') (<[i := projt t']> (projt <$> ls)) ->
    inst t' = inst t -> erst t' = erst t ->
    (forall j u, j <> i -> ls !! j = Some u -> written (c_ex s) (projt u) -> written (c_ex s') (projt u)) ->
    athr s' t' ->
    ainv s' (<[i := t']> ls) F' P.
  Proof using HP.
    intros I Hi Ev Eo El HN HF HLk HCn HVec HIn HEr Hw HSelf.
    assert (Es : stored s' = stored s) by (apply stored_same; assumption).
    refine (aupd s ls F P i t s' t' F' P I Hi _ _ HN _ _ _ HLk _ HVec _ _ (a_keq _ _ _ _ I) Hw HSelf).
    - rewrite Ev, Eo, El. auto.
    - rewrite Ev, Eo. auto.
    - intros x Hx. rewrite Eo. pose proof (HF x Hx) as Hx'. split; [left; exact Hx'|]. apply (a_free _ _ _ _ I). apply elem_of_app in Hx' as [Hx'|Hx']; [|apply elem_of_app; right; exact Hx'].
      apply elem_of_app. left. apply elem_of_list_bind. exists t. split; [exact Hx'|eapply elem_of_list_lookup_2; exact Hi].
    - intros x. rewrite Eo. unfold some_at. rewrite Ev. exact (a_val _ _ _ _ I x).
    - intros x v. rewrite Ev, Eo. exact (a_head _ _ _ _ I x v).
    - rewrite Es. lia.
    - rewrite Es, HIn. reflexivity.
    - rewrite HEr. reflexivity.
  Qed.
  Lemma g_nodup s ls F P i t : ainv s ls F P -> ls !! i = Some t -> NoDup (hndt t ++ F).
  Proof using.
    intros I Hi. pose proof (a_nodup _ _ _ _ I) as ND. destruct (bind_split hndt ls i t Hi) as (rest & E1 & _). rewrite E1 in ND. assert (ND' : NoDup (rest ++ (hndt t ++ F))) by (eapply perm_nodup; [|exact ND]; solve_Permutation). apply NoDup_app in ND'. apply ND'.
  Qed.
  (** steps without effect on the container *)
  Lemma aupd_same s s' ls F P i t t' : ainv s ls F P -> ls !! i = Some t ->
    c_values s' = c_values s -> c_occ s' = c_occ s -> c_locks s' = c_locks s -> c_count s' = c_count s -> c_ex s' = c_ex s ->
    hndt t' = hndt t -> heldt t' = heldt t -> pendt t' = pendt t -> inst t' = inst t -> erst t' = erst t ->
    (projt t' = projt t \/ (projt t = fresh_call [] /\ exists prog, projt t' = fresh_call prog /\ forall qo, qo ∈ prog -> op_wf qo)) ->
    athr s' t' -> ainv s' (<[i := t']> ls) F P.
  Proof using HP.
    intros I Hi Ev Eo El Ec Ex H1 H2 H3 H4 H5 H6 H7. refine (aupd_cells s ls F P i t s' t' F I Hi Ev Eo _ _ _ _ _ _ H4 H5 _ H7).
    - rewrite El. reflexivity.
    - rewrite H1. eapply g_nodup; eauto.
    - rewrite H1. auto.
    - intros x. rewrite H2, El. reflexivity.
    - lia.
    - rewrite Ex. assert (Hpi : (projt <$> ls) !! i = Some (projt t)) by (rewrite list_lookup_fmap, Hi; reflexivity). pose proof (a_vec _ _ _ _ I) as HV. destruct H6 as [-> |(H6 & prog & -> & Hwf)].
      + rewrite list_insert_id by exact Hpi. exact HV.
      + eapply vec_enter; [exact HV|rewrite Hpi, H6; reflexivity|exact Hwf].
    - rewrite Ex. auto.
  Qed.
  (** taking and giving back locks *)
  Lemma aupd_lock s ls F P i t t' x b : ainv s ls F P -> ls !! i = Some t -> (x < length (c_locks s))%nat ->
    (if b : bool then SlotProofs.lk (c_locks s) x = false /\ heldt t' ≡ₚ x :: heldt t else heldt t ≡ₚ x :: heldt t') ->
    hndt t' = hndt t -> pendt t' = pendt t -> inst t' = inst t -> erst t' = erst t -> projt t' = projt t ->
    athr (put_lock s x b) t' -> ainv (put_lock s x b) (<[i := t']> ls) F P.
  Proof using HP.
    intros I Hi Hx Hb H1 H3 H4 H5 H6 H7.
    assert (Hlx : forall y, SlotProofs.lk (c_locks (put_lock s x b)) y = if decide (x = y) then b else SlotProofs.lk (c_locks s) y).
    { intros y. cbn [put_lock c_locks]. unfold SlotProofs.lk. destruct (decide (x = y)) as [<- |Hne]; [rewrite list_lookup_insert by exact Hx; reflexivity|rewrite list_lookup_insert_ne by exact Hne; reflexivity]. }
    refine (aupd_cells s ls F P i t (put_lock s x b) t' F I Hi eq_refl eq_refl _ _ _ _ _ _ H4 H5 _ H7).
    - cbn. apply insert_length.
    - rewrite H1. eapply g_nodup; eauto.
    - rewrite H1. auto.
    - intros y. rewrite Hlx. destruct b.
      + destruct Hb as [Hb1 Hb2]. rewrite (perm_sum _ _ (SlotProofs.at_ y) Hb2). cbn [sumZ]. unfold SlotProofs.at_ at 2. destruct (decide (x = y)) as [<- |Hne]; [rewrite Hb1, decide_True by reflexivity; cbn; lia|rewrite decide_False by congruence; lia].
      + assert (Hh : SlotProofs.lk (c_locks s) x = true) by (eapply (g_held _ _ _ _ I); [exact Hi|rewrite Hb; left]).
        rewrite (perm_sum _ _ (SlotProofs.at_ y) Hb). cbn [sumZ]. unfold SlotProofs.at_ at 1. destruct (decide (x = y)) as [<- |Hne]; [rewrite Hh, decide_True by reflexivity; cbn; lia|rewrite decide_False by congruence; lia].
    - cbn. lia.
    - rewrite H6, list_insert_id by (rewrite list_lookup_fmap, Hi; reflexivity). exact (a_vec _ _ _ _ I).
    - auto.
  Qed.
End any.
