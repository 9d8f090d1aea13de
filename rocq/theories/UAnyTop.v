(** Kernels in which any number of threads insert, erase and look keys up: start, runs and rest (C79). *)
From Verif Require Import Base Conc SlotModel SlotSpec SlotProofs VectorModel VectorProofs VectorConcProofs UnorderedModel UnorderedSpec UnorderedProofs UConcModel UConcSpec UConcProofs UConcEnd UConcReach UEraseModel UEraseProofs UMixVec UMixShape UOneVec UOneDefs UOneUpd UOneStep UOneSpec UOneTop UAnyVec UAnyDefs UAnyStep UAnySpec.

Lemma bind_nodup {A B} (f : A -> list B) (l : list A) : (forall x, x ∈ l -> NoDup (f x)) -> (forall i j x y e, i <> j -> l !! i = Some x -> l !! j = Some y -> e ∈ f x -> e ∈ f y -> False) -> NoDup (l ≫= f).
Proof.
  intros H1 H2. induction l as [|x l IH]; [constructor|]. rewrite bind_cons. apply NoDup_app. split; [apply H1; left|]. split.
  - intros e He Hin. apply elem_of_list_bind in Hin as (y & Hy & Hl). apply elem_of_list_lookup in Hl as [j Hj]. exact (H2 0%nat (S j) x y e ltac:(discriminate) eq_refl Hj He Hy).
  - apply IH; [intros y Hy; apply H1; right; exact Hy|]. intros i j y z e Hij Hi Hj. exact (H2 (S i) (S j) y z e ltac:(congruence) Hi Hj).
Qed.
Lemma bind_submseteq {A B} (f g : A -> list B) (l : list A) : (forall x, x ∈ l -> f x ⊆+ g x) -> l ≫= f ⊆+ l ≫= g.
Proof. intros H. induction l as [|x l IH]; [reflexivity|]. rewrite !bind_cons. apply submseteq_app; [apply H; left|]. apply IH. intros y Hy. apply H. right. exact Hy. Qed.
Lemma bind_ext_in {A B} (f g : A -> list B) (l : list A) : (forall x, x ∈ l -> f x = g x) -> l ≫= f = l ≫= g.
Proof. intros H. induction l as [|x l IH]; [reflexivity|]. rewrite !bind_cons. rewrite H by left. f_equal. apply IH. intros y Hy. apply H. right. exact Hy. Qed.
Lemma bind_nils {A B} (l : list A) : l ≫= (fun _ => @nil B) = [].
Proof. induction l; auto. Qed.
Lemma bind_plus {A B} (f g : A -> list B) (l : list A) : l ≫= (fun x => f x ++ g x) ≡ₚ (l ≫= f) ++ (l ≫= g).
Proof. induction l as [|x l IH]; [reflexivity|]. rewrite !bind_cons, IH. solve_Permutation. Qed.
(** pairs, arranged as a given order of the second components asks *)
Lemma arrange {A B} (P : list (A * B)) (l : list B) : P.*2 ≡ₚ l -> exists P', P' ≡ₚ P /\ P'.*2 = l.
Proof.
  intros H. revert P H. induction l as [|k l IH]; intros P H.
  - apply Permutation_nil_r in H. destruct P; [exists []; auto|discriminate].
  - assert (Hk : k ∈ P.*2) by (rewrite H; left). apply elem_of_list_fmap in Hk as ([v k'] & -> & Hin). apply elem_of_Permutation in Hin as [P1 HP1]. cbn [snd] in *.
    destruct (IH P1) as (P' & H1 & H2). { assert (H' : k' :: P1.*2 ≡ₚ k' :: l) by (rewrite <- H, HP1; reflexivity). apply Permutation_cons_inv in H'. exact H'. }
    exists ((v, k') :: P'). split; [rewrite HP1, H1; reflexivity|]. cbn. rewrite H2. reflexivity.
Qed.

Section top.
  Context {K V : Type} (kf : V -> K) (hash : K -> Z) (keq : K -> K -> bool) (bc E : nat).
  Hypothesis HP : key_equality keq /\ hash_respects keq hash /\ sizes_ok bc E.
  Notation n := (bc + E)%nat.
  Notation bkt := (bkt hash bc).
  Notation heldt := (heldt kf hash bc).
  Notation stored := (stored bc E).
  Notation ainv M0 := (ainv kf hash keq bc E M0).
  Implicit Types (s : cshared V) (t : cthread K V) (ls : list (cthread K V)) (F : list nat) (P : list (V * K)) (op : cop K V).
  Local Notation HB := (mx_bkt hash keq bc E HP).
  Local Notation PL f I := (f kf hash keq bc E _ _ _ _ _ I) (only parsing).

  Definition arest s : Prop := exists F qs,
    (length (c_values s) = n /\ length (c_occ s) = n /\ length (c_locks s) = n) /\
    NoDup F /\ (forall x, x ∈ F -> (bc <= x)%nat /\ c_occ s !! x = Some false) /\ (forall x, c_occ s !! x = Some true -> some_at s x) /\
    (forall x v, (x < bc)%nat -> c_occ s !! x = Some true -> c_values s !! x = Some (Some v) -> bkt (kf v) = x) /\ (forall x, SlotProofs.lk (c_locks s) x = false) /\
    c_count s = Z.of_nat (length (stored s)) /\ inv (T:=Z) (C:=Z) E vm (fun _ => True) (fun w => sumZ w (Z.of_nat <$> F)) (c_ex s) qs /\ (forall q, q ∈ qs -> q = fresh_call []).
  Lemma arest_start s progs : arest s -> exists F, ainv (stored s) s (c_start progs) F [].
  Proof.
    intros (F & qs & H1 & H2 & H3 & H6 & H7 & H8 & H9 & H10 & H11). exists F. set (ls := c_start progs).
    assert (Hidle : forall t, t ∈ ls -> c_pc t = UIdle /\ c_log t = []) by (intros t Ht; destruct (start_facts progs t Ht) as (A & B & _); auto).
    assert (Hin : forall t, t ∈ ls -> inst t = [] /\ erst t = []). { intros t Ht. destruct (Hidle t Ht) as [A B]. unfold inst, erst. rewrite A, B. cbn [leavesI leavesE]. split; destruct (c_prog t) as [|[]]; reflexivity. }
    assert (Hh : ls ≫= hndt = []). { rewrite (bind_ext_in hndt (fun _ => [])); [apply bind_nils|]. intros t Ht. unfold hndt. rewrite (proj1 (Hidle t Ht)). reflexivity. }
    split; rewrite ?Hh; auto.
    - intros x. rewrite H8. symmetry. apply sumZ_zero. intros t Ht. unfold UOneDefs.heldt. rewrite (proj1 (Hidle t Ht)). reflexivity.
    - rewrite H9, (sumZ_zero pendt), Z.add_0_r; [reflexivity|]. intros t Ht. unfold pendt. rewrite (proj1 (Hidle t Ht)). reflexivity.
    - replace (projt <$> ls) with (replicate (length ls) (fresh_call [])); [eapply rest_restart; eauto|]. apply replicate_as_elem_of. split; [apply fmap_length|]. intros q Hq. apply elem_of_list_fmap in Hq as (t & -> & Ht). unfold projt. rewrite (proj1 (Hidle t Ht)). reflexivity.
    - rewrite (bind_ext_in inst (fun _ => [])), bind_nils by (intros t Ht; apply Hin; exact Ht). reflexivity.
    - rewrite (bind_ext_in erst (fun _ => [])), bind_nils by (intros t Ht; apply Hin; exact Ht). reflexivity.
    - intros i t Hi. assert (Ht : t ∈ ls) by (eapply elem_of_list_lookup_2; exact Hi). unfold athr. rewrite (proj1 (Hidle t Ht)). destruct (c_prog t); [reflexivity|exact Logic.I].
  Qed.
  Lemma ainv_reach tr M0 s ls s' ls' F P : ainv M0 s ls F P -> Conc.reach (kernel_step kf hash keq bc E tr) (s, ls) (s', ls') -> exists F' P', ainv M0 s' ls' F' P'.
  Proof using HP.
    intros I HR. pose (Q := fun c : cshared V * list (cthread K V) => exists F P, ainv M0 c.1 c.2 F P).
    refine (invariant (kernel_step kf hash keq bc E tr) Q _ (s, ls) (s', ls') _ HR); [|exists F, P; exact I]. intros c c' Hc Hcs. destruct Hcs as [s1 ls1 i t s2 t2 Hi Hst]. destruct Hc as (F1 & P1 & I1). cbn [fst snd] in I1.
    destruct (c_prog t) as [|op rest0] eqn:Ep.
    { exfalso. pose proof (PL a_thr I1 i t Hi) as T. unfold athr in T. rewrite Ep in T. unfold kernel_step in Hst. destruct tr; unfold estep, ustep in Hst; rewrite ?T, Ep in Hst; discriminate. }
    unfold kernel_step in Hst. destruct tr; [exact (aestep_at kf hash keq bc E HP M0 s1 ls1 F1 P1 i t op rest0 I1 Hi Ep s2 t2 Hst)|exact (astep_at kf hash keq bc E HP M0 s1 ls1 F1 P1 i t op rest0 I1 Hi Ep s2 t2 Hst)].
  Qed.
  (** what has returned and what is running *)
  Lemma inst_split ls : exists X, ls ≫= inst ≡ₚ inserted_values ls ++ X /\ X ⊆+ running_inserts ls /\ (c_quiescent ls -> X = []).
  Proof.
    exists (ls ≫= fun t => match c_prog t with CInsert v :: _ => if leavesI (c_pc t) then [v] else [] | _ => [] end). split; [apply bind_plus|]. split.
    - apply bind_submseteq. intros t _. destruct (c_prog t) as [|[v|k|k] r]; [apply submseteq_nil_l| |apply submseteq_nil_l|apply submseteq_nil_l]. destruct (c_pc t); cbn [leavesI]; try apply submseteq_nil_l; try reflexivity; destruct r0; try apply submseteq_nil_l; reflexivity.
    - intros Hq. rewrite (bind_ext_in _ (fun _ => [])); [apply bind_nils|]. intros t Ht. rewrite (Hq t Ht). destruct (c_prog t) as [|[]]; reflexivity.
  Qed.
  Lemma erst_split ls : exists X, ls ≫= erst ≡ₚ erased_keys ls ++ X /\ X ⊆+ running_erases ls /\ (c_quiescent ls -> X = []).
  Proof.
    exists (ls ≫= fun t => match c_prog t with CErase v :: _ => if leavesE (c_pc t) then [v] else [] | _ => [] end). split; [apply bind_plus|]. split.
    - apply bind_submseteq. intros t _. destruct (c_prog t) as [|[v|k|k] r]; [apply submseteq_nil_l|apply submseteq_nil_l| |apply submseteq_nil_l]. destruct (c_pc t); cbn [leavesE]; try apply submseteq_nil_l; try reflexivity; destruct ok; try apply submseteq_nil_l; reflexivity.
    - intros Hq. rewrite (bind_ext_in _ (fun _ => [])); [apply bind_nils|]. intros t Ht. rewrite (Hq t Ht). destruct (c_prog t) as [|[]]; reflexivity.
  Qed.
  Lemma ainv_conserves M0 s ls F P : ainv M0 s ls F P -> exists removed vs ks,
    stored s ++ removed ≡ₚ M0 ++ inserted_values ls ++ vs /\ vs ⊆+ running_inserts ls /\ Forall2 (fun v k => keq (kf v) k = true) removed (erased_keys ls ++ ks) /\ ks ⊆+ running_erases ls /\
    (c_quiescent ls -> vs = [] /\ ks = []).
  Proof.
    intros I. destruct (inst_split ls) as (vs & V1 & V2 & V3). destruct (erst_split ls) as (ks & K1 & K2 & K3). pose proof (PL a_rem I) as HR. rewrite K1 in HR. destruct (arrange P _ HR) as (P' & HP' & E2).
    exists (P'.*1), vs, ks. split; [|split; [exact V2|split; [|split; [exact K2|auto]]]].
    - rewrite HP', (PL a_cons I), V1. reflexivity.
    - pose proof (PL a_keq I) as HK. rewrite <- HP' in HK. rewrite <- E2. clear - HK. induction HK as [|x l Hx HK IH]; [constructor|]. cbn. constructor; [exact Hx|exact IH].
  Qed.
  Lemma ainv_rest M0 s ls F P : ainv M0 s ls F P -> c_quiescent ls -> arest s.
  Proof.
    intros I Hq. assert (Hq' : forall t, t ∈ ls -> c_pc t = UIdle) by exact Hq.
    assert (Hh : ls ≫= hndt = []). { rewrite (bind_ext_in hndt (fun _ => [])); [apply bind_nils|]. intros t Ht. unfold hndt. rewrite (Hq' t Ht). reflexivity. }
    pose proof (PL a_nodup I) as H1. pose proof (PL a_free I) as H2. rewrite Hh in H1, H2. cbn [app] in H1, H2.
    exists F, (projt <$> ls). split; [exact (PL a_len I)|]. split; [exact H1|]. split; [exact H2|]. split; [exact (PL a_val I)|]. split; [exact (PL a_head I)|]. split; [|split; [|split; [exact (PL a_vec I)|]]].
    - intros x. pose proof (PL a_lock I x) as H. rewrite sumZ_zero in H; [destruct (SlotProofs.lk _ x); [discriminate|reflexivity]|]. intros t Ht. unfold UOneDefs.heldt. rewrite (Hq' t Ht). reflexivity.
    - rewrite (PL a_count I), (sumZ_zero pendt); [lia|]. intros t Ht. unfold pendt. rewrite (Hq' t Ht). reflexivity.
    - intros q Hqq. apply elem_of_list_fmap in Hqq as (t & -> & Ht). unfold projt. rewrite (Hq' t Ht). reflexivity.
  Qed.
  Lemma urep_arest (u : utab V) G st : urep kf hash keq true bc E (replicate n false) u G st -> arest (shared_of u).
  Proof using HP.
    intros R. destruct (urep_rest kf hash keq bc E HP u G st R) as (C & F & X & qs & (L1 & L2 & L3 & L4 & L5) & H2 & H3 & H4 & H5 & H6 & H7 & H8 & H9 & H10 & H11). exists F, qs.
    assert (ND : NoDup ((C ≫= (fun l : list nat => l)) ++ F ++ X)) by (rewrite H2; apply NoDup_seq).
    split; [auto|]. split; [apply NoDup_app in ND as (_ & _ & ND); apply NoDup_app in ND; apply ND|]. split.
    { intros x Hx. split; [|apply H5; exact Hx]. assert (Hin : x ∈ seq bc E) by (rewrite <- H2; rewrite !elem_of_app; auto). apply elem_of_seq in Hin. lia. }
    split; [exact H6|]. split; [|auto].
    intros x v Hx _ Hv. destruct (lookup_lt_is_Some_2 G x) as [g Hg]; [rewrite (ur_lg _ _ _ _ _ _ _ _ _ _ R); exact Hx|]. pose proof (ur_head _ _ _ _ _ _ _ _ _ _ R x g Hg) as Hh. change (u_values u !! x = Some (Some v)) in Hv. rewrite Hv in Hh. injection Hh as Hh.
    apply (ur_bkt _ _ _ _ _ _ _ _ _ _ R x g v Hg). unfold gvals. rewrite <- Hh. left.
  Qed.
  Lemma any_kernels_rest tr s0 lss s : arest s0 -> any_kernels kf hash keq bc E tr s0 lss s -> arest s /\ exists removed, stored s ++ removed ≡ₚ stored s0 ++ (lss ≫= inserted_values) /\ Forall2 (fun v k => keq (kf v) k = true) removed (lss ≫= erased_keys).
  Proof using HP.
    intros R0 HK. induction HK as [s|s lss s1 progs s2 ls HK IH HR Hq]; [split; [exact R0|]; exists []; rewrite !app_nil_r; split; [reflexivity|constructor]|].
    destruct (IH R0) as (R1 & rem & H1 & H2). destruct (arest_start s1 progs R1) as (F & I0). destruct (ainv_reach tr _ _ _ _ _ _ _ I0 HR) as (F' & P' & I). pose proof (ainv_rest _ _ _ _ _ I Hq) as R2.
    destruct (ainv_conserves _ _ _ _ _ I) as (rem' & vs & ks & H3 & _ & H4 & _ & H5). destruct (H5 Hq) as [-> ->]. rewrite app_nil_r in H3, H4.
    split; [exact R2|]. exists (rem ++ rem'). rewrite !bind_app. split.
    - cbn [mbind list_bind]. rewrite app_nil_r. transitivity (rem ++ (stored s2 ++ rem')); [solve_Permutation|]. rewrite H3. transitivity ((stored s1 ++ rem) ++ inserted_values ls); [solve_Permutation|]. rewrite H1. solve_Permutation.
    - apply Forall2_app; [exact H2|]. cbn [mbind list_bind]. rewrite app_nil_r. exact H4.
  Qed.
  Lemma arest_facts s : arest s -> length (c_values s) = n /\ length (c_occ s) = n /\ c_count s = Z.of_nat (length (stored s)).
  Proof. intros (F & qs & (H1 & H2 & _) & _ & _ & _ & _ & _ & H3 & _). auto. Qed.

  (** the counter: the occupied entries and those about to be *)
  Definition pcell t : list nat := match c_pc t with ISetB => [tb kf hash bc t] | ISetL _ p | XCntB p | XCnt p _ => [p] | _ => [] end.
  Lemma pcell_own M0 s ls F P i t x : ainv M0 s ls F P -> ls !! i = Some t -> x ∈ pcell t -> aown kf hash bc s t x /\ c_occ s !! x = Some false.
  Proof using HP.
    intros I Hi Hx. pose proof (PL a_thr I i t Hi) as T. unfold athr in T. unfold pcell in Hx. destruct (c_prog t) as [|op r] eqn:Ep; [rewrite T in Hx; inversion Hx|]. pose proof (HB (op_key kf op)) as Hb.
    assert (Htb : tb kf hash bc t = bkt (op_key kf op)) by (unfold tb; rewrite Ep; reflexivity).
    destruct (c_pc t) eqn:Epc; try (inversion Hx; fail); apply elem_of_list_singleton in Hx as ->; cbn [UAnyDefs.akn] in T.
    - rewrite Htb. split; [|apply T]. right. unfold UOneDefs.heldt. rewrite Epc, Htb. split; [left|right; exact Hb].
    - assert (Hp : p ∈ hndt t) by (unfold hndt; rewrite Epc; left). split; [left; exact Hp|]. exact (proj2 (g_hand _ _ _ _ _ _ _ _ _ _ I i t p Hi Hp)).
    - destruct T as (_ & -> & T). split; [|exact T]. right. unfold UOneDefs.heldt. rewrite Epc, Htb. split; [left|right; exact Hb].
    - assert (Hp : p ∈ hndt t) by (unfold hndt; rewrite Epc; left). split; [left; exact Hp|]. exact (proj2 (g_hand _ _ _ _ _ _ _ _ _ _ I i t p Hi Hp)).
  Qed.
  Lemma ainv_count M0 s ls F P : ainv M0 s ls F P -> 0 <= c_count s <= Z.of_nat n.
  Proof using HP.
    intros I. assert (Hp : sumZ pendt ls = Z.of_nat (length (ls ≫= pcell))).
    { clear I. induction ls as [|t l IH]; [reflexivity|]. rewrite bind_cons, app_length. cbn [sumZ]. rewrite IH. assert (pendt t = Z.of_nat (length (pcell t))) by (unfold pendt, pcell; destruct (c_pc t); reflexivity). lia. }
    rewrite (PL a_count I), Hp. set (oc := filter (fun x => c_occ s !! x = Some true) (seq 0 n)).
    assert (Hst : (length (stored s) <= length oc)%nat).
    { unfold oc, UOneDefs.stored. clear. induction (seq 0 n) as [|x l IH]; [reflexivity|]. rewrite filter_cons. cbn [omap list_omap]. unfold sv at 1. destruct (c_occ s !! x) as [[]|] eqn:Ho.
      - rewrite decide_True by (first [exact Ho|reflexivity]). destruct (c_values s !! x) as [[v|]|]; [exact (le_n_S _ _ IH)|exact (Nat.le_le_succ_r _ _ IH)|exact (Nat.le_le_succ_r _ _ IH)].
      - rewrite decide_False by congruence. exact IH.
      - rewrite decide_False by congruence. exact IH. }
    assert (ND : NoDup (oc ++ (ls ≫= pcell))).
    { apply NoDup_app. split; [apply NoDup_filter, NoDup_seq|]. split.
      - intros x Hx Hin. apply elem_of_list_filter in Hx as [Hx _]. apply elem_of_list_bind in Hin as (t & Ht & Hl). apply elem_of_list_lookup in Hl as [i Hi]. destruct (pcell_own _ _ _ _ _ _ _ _ I Hi Ht) as [_ H]. congruence.
      - apply bind_nodup.
        + intros t _. unfold pcell. destruct (c_pc t); try apply NoDup_nil_2; apply NoDup_singleton.
        + intros i j t u x Hij Hi Hj Ht Hu. destruct (pcell_own _ _ _ _ _ _ _ _ I Hi Ht) as [H1 _]. destruct (pcell_own _ _ _ _ _ _ _ _ I Hj Hu) as [H2 _]. exact (g_excl _ _ _ _ _ _ _ _ _ _ I i j t u x Hij Hi Hj H1 H2). }
    assert (Hsub : oc ++ (ls ≫= pcell) ⊆+ seq 0 n).
    { apply NoDup_submseteq; [exact ND|]. intros x Hx. apply elem_of_app in Hx as [Hx|Hx]; [apply elem_of_list_filter in Hx; apply Hx|]. apply elem_of_list_bind in Hx as (t & Ht & Hl). apply elem_of_list_lookup in Hl as [i Hi]. destruct (pcell_own _ _ _ _ _ _ _ _ I Hi Ht) as [_ H]. apply elem_of_seq. apply lookup_lt_Some in H. destruct (PL a_len I) as (_ & H' & _). lia. }
    apply submseteq_length in Hsub. rewrite app_length, seq_length in Hsub. lia.
  Qed.
End top.
