(** Kernels in which one thread erases and any number of threads insert: start, runs and rest (C67). *)
From Verif Require Import Base Conc SlotModel SlotSpec SlotProofs VectorModel VectorProofs VectorConcProofs UnorderedModel UnorderedSpec UnorderedProofs UConcModel UConcSpec UConcProofs UConcEnd UConcReach UEraseModel UEraseProofs UMixVec UMixShape UOneVec UOneDefs UOneUpd UOneStep UOneLink UOneMain UOneSpec.
From Verif Require UMixTop.

Lemma rest_restart (cap : nat) w0 (x : qshared Z Z) (qs : list (qthread Z)) m : inv (T:=Z) (C:=Z) cap vm (fun _ => True) w0 x qs -> (forall q, q ∈ qs -> q = fresh_call []) -> inv (T:=Z) (C:=Z) cap vm (fun _ => True) w0 x (replicate m (fresh_call [])).
Proof.
  intros I Hq. assert (Hz : forall f : qthread Z -> Z, f (fresh_call []) = 0 -> sumZ f qs = 0 /\ sumZ f (replicate m (fresh_call [])) = 0).
  { intros f Hf. split; apply sumZ_zero; intros t Ht; [rewrite (Hq t Ht); exact Hf|]. apply elem_of_replicate in Ht as [-> _]. exact Hf. }
  split.
  - exact (i_len _ _ _ _ _ _ I).
  - exact Logic.I.
  - intros t Ht. apply elem_of_replicate in Ht as [-> _]. split; [intros op Hop; inversion Hop|exact Logic.I].
  - intros p Hp. rewrite (i_lock _ _ _ _ _ _ I p Hp). destruct (Hz (incs p) eq_refl) as [-> ->]. reflexivity.
  - intros p Hp. rewrite <- (i_net _ _ _ _ _ _ I p Hp). destruct (Hz (pp p) eq_refl) as [-> ->]. destruct (Hz (pq p) eq_refl) as [-> ->]. reflexivity.
  - intros p Hp. rewrite (i_live _ _ _ _ _ _ I p Hp). destruct (Hz (lv p) eq_refl) as [-> ->]. reflexivity.
  - intros t Ht. apply elem_of_replicate in Ht as [-> _]. exact Logic.I.
  - intros w. pose proof (i_cons _ _ _ _ _ _ I w) as H. destruct (Hz (wpush w) eq_refl) as [E1 ->]. destruct (Hz (wpop w) eq_refl) as [E2 ->]. rewrite E1, E2 in H. exact H.
Qed.

Section top.
  Context {K V : Type} (kf : V -> K) (hash : K -> Z) (keq : K -> K -> bool) (bc E : nat).
  Hypothesis HP : key_equality keq /\ hash_respects keq hash /\ sizes_ok bc E.
  Notation n := (bc + E)%nat.
  Notation oinv ie M0 := (oinv kf hash keq bc E ie M0).
  Notation step := (estep kf hash keq bc E).
  Notation flat C := (C ≫= (fun l : list nat => l)).
  Implicit Types (s : cshared V) (t : cthread K V) (ls : list (cthread K V)) (C : list (list nat)) (F X : list nat) (R : list V) (op : cop K V).

  Lemma stored_values_eq s : length (c_values s) = n -> length (c_occ s) = n -> stored_values s = stored bc E s.
  Proof.
    intros H1 H2. unfold stored_values, stored. assert (Ez : zip_with (fun (o : bool) (v : option V) => if o then v else None) (c_occ s) (c_values s) = sv s <$> seq 0 n).
    { apply list_eq. intros p. rewrite lookup_zip_with, list_lookup_fmap. unfold sv. destruct (decide (p < n)%nat) as [Hp|Hp].
      - rewrite lookup_seq_lt by exact Hp. destruct (lookup_lt_is_Some_2 (c_occ s) p) as [o Ho]; [lia|]. destruct (lookup_lt_is_Some_2 (c_values s) p) as [v Hv]; [lia|]. cbn. rewrite Ho, Hv. cbn. destruct o, v; reflexivity.
      - rewrite (lookup_ge_None_2 (seq 0 n)) by (rewrite seq_length; lia). rewrite (lookup_ge_None_2 (c_occ s)) by lia. reflexivity. }
    rewrite Ez. clear. induction (seq 0 n) as [|p l IH]; [reflexivity|]. cbn. rewrite IH. destruct (sv s p); reflexivity.
  Qed.

  (** a state without running calls *)
  Definition rest s : Prop := exists C F X qs,
    (length (c_values s) = n /\ length (c_off s) = n /\ length (c_occ s) = n /\ length (c_locks s) = n /\ length C = bc) /\
    flat C ++ F ++ X ≡ₚ seq bc E /\ (forall c, (c < bc)%nat -> linked (c_off s) c (ch C c)) /\ (forall x, x ∈ flat C -> c_occ s !! x = Some true) /\ (forall x, x ∈ F -> c_occ s !! x = Some false) /\
    (forall x, c_occ s !! x = Some true -> some_at s x) /\ (forall x o, c_off s !! x = Some o -> 0 <= Z.of_nat x + o < Z.of_nat n) /\ (forall x, SlotProofs.lk (c_locks s) x = false) /\
    c_count s = Z.of_nat (length (stored bc E s)) /\ inv (T:=Z) (C:=Z) E vm (fun _ => True) (fun w => sumZ w (Z.of_nat <$> F)) (c_ex s) qs /\ (forall q, q ∈ qs -> q = fresh_call []).
  Lemma start_facts progs t : t ∈ c_start (K:=K) (V:=V) progs -> c_pc t = UIdle /\ c_log t = [] /\ c_prog t ∈ progs.
  Proof. intros Ht. apply elem_of_list_fmap in Ht as (p & -> & Hp). auto. Qed.
  Lemma rest_start s ie progs : rest s -> one_erases ie progs -> exists C F X, oinv ie (stored bc E s) s (c_start progs) C F X [].
  Proof.
    intros (C & F & X & qs & H1 & H2 & H3 & H4 & H5 & H6 & H7 & H8 & H9 & H10 & H11) Hone. exists C, F, X. set (ls := c_start progs).
    assert (Hidle : forall t, t ∈ ls -> c_pc t = UIdle /\ c_log t = []) by (intros t Ht; destruct (start_facts progs t Ht) as (A & B & _); auto).
    assert (Hbn : forall A (f : cthread K V -> list A), (forall t, t ∈ ls -> f t = []) -> ls ≫= f = []).
    { intros A f Hf. clearbody ls. induction ls as [|t l IH]; [reflexivity|]. cbn. rewrite (Hf t) by left. apply IH. intros t' Ht'. apply Hidle. right. exact Ht'. intros t' Ht'. apply Hf. right. exact Ht'. }
    assert (Hin : forall t, t ∈ ls -> inst t = [] /\ erst t = []). { intros t Ht. destruct (Hidle t Ht) as [A B]. unfold inst, erst. rewrite A, B. cbn [leavesI leavesE]. split; destruct (c_prog t) as [|[]]; reflexivity. }
    split; auto.
    - rewrite (Hbn _ handt) by (intros t Ht; unfold handt; rewrite (proj1 (Hidle t Ht)); reflexivity). exact H2.
    - intros x. rewrite H8. symmetry. apply sumZ_zero. intros t Ht. unfold heldt. rewrite (proj1 (Hidle t Ht)). reflexivity.
    - rewrite H9, (sumZ_zero pendt), Z.add_0_r; [reflexivity|]. intros t Ht. unfold pendt. rewrite (proj1 (Hidle t Ht)). reflexivity.
    - replace (projt <$> ls) with (replicate (length ls) (fresh_call [])); [eapply rest_restart; eauto|]. apply replicate_as_elem_of. split; [apply fmap_length|]. intros q Hq. apply elem_of_list_fmap in Hq as (t & -> & Ht). unfold projt. rewrite (proj1 (Hidle t Ht)). reflexivity.
    - rewrite (Hbn _ inst) by (intros t Ht; apply Hin; exact Ht). reflexivity.
    - unfold erasedL. destruct (ls !! ie) as [t|] eqn:Et; [|constructor]. rewrite (proj2 (Hin t (elem_of_list_lookup_2 _ _ _ Et))). constructor.
    - intros i t Hi. assert (Ht : t ∈ ls) by (eapply elem_of_list_lookup_2; exact Hi). split.
      + unfold ls, c_start in Hi. rewrite list_lookup_fmap in Hi. destruct (progs !! i) as [prog|] eqn:Eprog; [|discriminate]. injection Hi as <-. cbn [c_log c_prog fmap list_fmap app]. intros op Hop He. destruct op as [|k|]; try contradiction. eapply Hone; [exact Eprog|exact Hop].
      + rewrite (proj1 (Hidle t Ht)). destruct (c_prog t); [reflexivity|exact Logic.I].
  Qed.
  Lemma oinv_step ie M0 s ls C F X R i t : oinv ie M0 s ls C F X R -> ls !! i = Some t -> c_prog t <> [] -> exists s' t', step i s t = Some (s', t') /\ exists C' F' X' R', oinv ie M0 s' (<[i := t']> ls) C' F' X' R'.
  Proof using HP. intros I Hi Hp. destruct (c_prog t) as [|op rest0] eqn:Ep; [congruence|]. exact (ostep_at kf hash keq bc E HP ie M0 s ls C F X R i t op rest0 I Hi Ep). Qed.
  Lemma oinv_reach ie M0 s ls s' ls' C F X R : oinv ie M0 s ls C F X R -> Conc.reach step (s, ls) (s', ls') -> exists C' F' X' R', oinv ie M0 s' ls' C' F' X' R'.
  Proof using HP.
    intros I HR. pose (P := fun c : cshared V * list (cthread K V) => exists C F X R, oinv ie M0 c.1 c.2 C F X R).
    refine (invariant step P _ (s, ls) (s', ls') _ HR); [|exists C, F, X, R; exact I]. intros c c' Hc Hcs. destruct Hcs as [s1 ls1 i t s2 t2 Hi Hst]. destruct Hc as (C1 & F1 & X1 & R1 & I1). cbn [fst snd] in I1.
    destruct (c_prog t) as [|op rest0] eqn:Ep.
    { exfalso. destruct (o_thr _ _ _ _ _ _ _ _ _ _ _ _ _ I1 i t Hi) as [_ T]. rewrite Ep in T. unfold estep, ustep in Hst. rewrite T, Ep in Hst. discriminate. }
    destruct (oinv_step ie M0 s1 ls1 C1 F1 X1 R1 i t I1 Hi) as (s3 & t3 & E3 & H3); [rewrite Ep; discriminate|]. rewrite Hst in E3. injection E3 as <- <-. exact H3.
  Qed.
  Lemma oinv_rest ie M0 s ls C F X R : oinv ie M0 s ls C F X R -> c_quiescent ls -> rest s /\ stored bc E s ++ R ≡ₚ M0 ++ inserted_values ls /\ Forall2 (fun v k => keq (kf v) k = true) R (erased_keys ls) /\ c_count s = Z.of_nat (length (stored bc E s)).
  Proof.
    intros I Hq. assert (Hq' : forall t, t ∈ ls -> c_pc t = UIdle) by exact Hq.
    assert (Hbn : forall A (f g : cthread K V -> list A), (forall t, t ∈ ls -> f t = g t) -> ls ≫= f = ls ≫= g).
    { intros A f g Hf. clear I Hq Hq'. induction ls as [|t l IH]; [reflexivity|]. cbn. rewrite (Hf t) by left. f_equal. apply IH. intros t' Ht'. apply Hf. right. exact Ht'. }
    assert (Hnil : forall A (l : list (cthread K V)), l ≫= (fun _ => @nil A) = []) by (intros A l; induction l; auto).
    assert (Hc : c_count s = Z.of_nat (length (stored bc E s))). { rewrite (o_count _ _ _ _ _ _ _ _ _ _ _ _ _ I), (sumZ_zero pendt); [lia|]. intros t Ht. unfold pendt. rewrite (Hq' t Ht). reflexivity. }
    split.
    - exists C, F, X, (projt <$> ls). split; [exact (o_len _ _ _ _ _ _ _ _ _ _ _ _ _ I)|]. split.
      { pose proof (o_perm _ _ _ _ _ _ _ _ _ _ _ _ _ I) as H. rewrite (Hbn _ handt (fun _ => [])), Hnil in H; [exact H|]. intros t Ht. unfold handt. rewrite (Hq' t Ht). reflexivity. }
      split; [exact (o_link _ _ _ _ _ _ _ _ _ _ _ _ _ I)|]. split; [exact (o_occ _ _ _ _ _ _ _ _ _ _ _ _ _ I)|]. split; [exact (o_free _ _ _ _ _ _ _ _ _ _ _ _ _ I)|]. split; [exact (o_val _ _ _ _ _ _ _ _ _ _ _ _ _ I)|]. split; [exact (o_off _ _ _ _ _ _ _ _ _ _ _ _ _ I)|]. split.
      { intros x. pose proof (o_lock _ _ _ _ _ _ _ _ _ _ _ _ _ I x) as H. rewrite sumZ_zero in H; [destruct (SlotProofs.lk _ x); [discriminate|reflexivity]|]. intros t Ht. unfold heldt. rewrite (Hq' t Ht). reflexivity. }
      split; [exact Hc|]. split; [exact (o_vec _ _ _ _ _ _ _ _ _ _ _ _ _ I)|]. intros q Hqq. apply elem_of_list_fmap in Hqq as (t & -> & Ht). unfold projt. rewrite (Hq' t Ht). reflexivity.
    - split; [|split; [|exact Hc]].
      + rewrite (o_cons _ _ _ _ _ _ _ _ _ _ _ _ _ I). unfold inserted_values. rewrite (Hbn _ inst (fun t => logI (c_log t))); [reflexivity|]. intros t Ht. unfold inst. rewrite (Hq' t Ht). cbn [leavesI]. destruct (c_prog t) as [|[]]; rewrite app_nil_r; reflexivity.
      + pose proof (o_rem _ _ _ _ _ _ _ _ _ _ _ _ _ I) as HR. assert (Ek : erased_keys ls = erasedL ie ls); [|rewrite Ek; exact HR].
        unfold erased_keys, erasedL. assert (Hlog : forall i t, ls !! i = Some t -> i <> ie -> logE (c_log t) = []).
        { intros i t Hi Hne. destruct (o_thr _ _ _ _ _ _ _ _ _ _ _ _ _ I i t Hi) as [T _]. unfold logE. assert (Hl : forall op, op ∈ (c_log t).*1 -> ~ isE op) by (intros op Hop He; apply Hne; apply (T op); [apply elem_of_app; left; exact Hop|exact He]). clear - Hl.
          induction (c_log t) as [|[op r] l IH]; [reflexivity|]. cbn. assert (Hop : ~ isE op) by (apply Hl; left). destruct op as [|k|]; [| |]; try (apply IH; intros op' Hop'; apply Hl; right; exact Hop'). exfalso. apply Hop. exact Logic.I. }
        assert (Hie : forall t, ls !! ie = Some t -> erst t = logE (c_log t)). { intros t Ht. unfold erst. rewrite (Hq' t (elem_of_list_lookup_2 _ _ _ Ht)). cbn [leavesE]. destruct (c_prog t) as [|[]]; rewrite app_nil_r; reflexivity. }
        revert Hlog Hie. clear. unfold logE. generalize ie. induction ls as [|t l IH]; intros k Hlog Hie; [reflexivity|]. rewrite bind_cons. destruct k as [|k].
        * cbn [lookup list_lookup]. rewrite (Hie t eq_refl). assert (Hz : l ≫= (fun t => omap (fun x : cop K V * cret => match x with (CErase k, RErased true) => Some k | _ => None end) (c_log t)) = []).
          { assert (Hl : forall t', t' ∈ l -> omap (fun x : cop K V * cret => match x with (CErase k, RErased true) => Some k | _ => None end) (c_log t') = []) by (intros t' Ht'; apply elem_of_list_lookup in Ht' as [j Hj]; apply (Hlog (S j) t' Hj); discriminate).
            clear - Hl. induction l as [|t' l IH]; [reflexivity|]. cbn. rewrite (Hl t') by left. apply IH. intros t'' Ht''. apply Hl. right. exact Ht''. }
          rewrite Hz, app_nil_r. reflexivity.
        * cbn [lookup list_lookup]. rewrite (Hlog 0%nat t eq_refl) by discriminate. cbn [app]. apply (IH k).
          -- intros i t' Hi Hne. apply (Hlog (S i) t' Hi). congruence.
          -- intros t' Ht'. apply (Hie t'). exact Ht'.
  Qed.
  Lemma urep_rest (u : utab V) G st : urep kf hash keq true bc E (replicate n false) u G st -> rest (shared_of u).
  Proof using HP.
    intros R. pose proof (UMixTop.start_shape kf hash keq bc E HP 0%nat u G st R) as I.
    assert (Hocc : forall x, c_occ (shared_of u) !! x = is_some <$> c_values (shared_of u) !! x) by (intros x; apply (ur_occ _ _ _ _ _ _ _ _ _ _ R)).
    assert (Ech : forall c, ch (gpos <$> G) c = gpos (gb G c)). { intros c. unfold ch, gb. rewrite list_lookup_fmap. destruct (G !! c); reflexivity. }
    assert (Efl : (gpos <$> G) ≫= (fun l : list nat => l) = G ≫= gpos) by (induction G as [|g G' IH]; [reflexivity|]; clear; induction (g :: G') as [|g' l IH]; [reflexivity|]; cbn; f_equal; exact IH).
    exists (gpos <$> G), st, [], [fresh_call []; fresh_call []].
    split; [rewrite fmap_length; repeat split; apply I|]. split; [rewrite Efl, app_nil_r; exact (sh_perm _ _ _ _ _ _ _ _ _ _ _ _ _ I)|]. split; [intros c Hc; rewrite Ech; exact (sh_link _ _ _ _ _ _ _ _ _ _ _ _ _ I c Hc)|]. split.
    { rewrite Efl. intros x Hx. apply elem_of_list_bind in Hx as (g & Hx & Hg). apply elem_of_list_lookup in Hg as [c Hc]. assert (Hcb : (c < bc)%nat) by (rewrite <- (sh_lg _ _ _ _ _ _ _ _ _ _ _ _ _ I); eapply lookup_lt_Some; exact Hc).
      assert (Eg : gb G c = g) by (unfold gb; rewrite Hc; reflexivity). rewrite <- Eg in Hx. destruct (ents_excess G c x Hx) as [w Hw]. exact (proj2 (sh_ent _ _ _ _ _ _ _ _ _ _ _ _ _ I c x w Hcb Hw)). }
    split; [exact (sh_free _ _ _ _ _ _ _ _ _ _ _ _ _ I)|]. split; [exact (sh_val _ _ _ _ _ _ _ _ _ _ _ _ _ I)|]. split; [exact (sh_off _ _ _ _ _ _ _ _ _ _ _ _ _ I)|]. split.
    { intros x. destruct (SlotProofs.lk (c_locks (shared_of u)) x) eqn:El; [|reflexivity]. apply (sh_lock _ _ _ _ _ _ _ _ _ _ _ _ _ I) in El. inversion El. }
    split; [|split; [exact (p_inv _ _ _ _ _ (sh_vec _ _ _ _ _ _ _ _ _ _ _ _ _ I))|intros q Hq; rewrite !elem_of_cons in Hq; destruct Hq as [-> |[-> |Hq]]; [reflexivity|reflexivity|inversion Hq]]].
    rewrite (sh_count _ _ _ _ _ _ _ _ _ _ _ _ _ I), Z.add_0_r. f_equal. rewrite <- stored_values_eq by apply I. destruct HP as ((K1 & K2 & K3) & Hh & (Z1 & Z2 & Z3)).
    rewrite <- (UnorderedProofs.content_perm kf hash keq true (fun m => seq 0 m) (fun m => reflexivity _) K1 K2 K3 Hh bc E Z1 Z2 Z3 (replicate n false) u G st R). unfold stored_values.
    assert (Eo : c_occ (shared_of u) = is_some <$> c_values (shared_of u)) by (apply list_eq; intros x; rewrite list_lookup_fmap; apply Hocc). rewrite Eo. change (c_values (shared_of u)) with (u_values u). clear.
    induction (u_values u) as [|[v|] l IH]; [reflexivity| |]; cbn; [f_equal; exact IH|exact IH].
  Qed.
  (** consecutive kernels *)
  Lemma kernels_rest s0 lss s : rest s0 -> kernels kf hash keq bc E s0 lss s -> rest s /\ exists removed, stored bc E s ++ removed ≡ₚ stored bc E s0 ++ (lss ≫= inserted_values) /\ Forall2 (fun v k => keq (kf v) k = true) removed (lss ≫= erased_keys).
  Proof using HP.
    intros R0 HK. induction HK as [s|s lss s1 ers progs s2 ls HK IH Hone HR Hq]; [split; [exact R0|]; exists []; rewrite !app_nil_r; split; [reflexivity|constructor]|].
    destruct (IH R0) as (R1 & rem & H1 & H2). destruct (rest_start s1 ers progs R1 Hone) as (C & F & X & I0). destruct (oinv_reach _ _ _ _ _ _ _ _ _ _ I0 HR) as (C' & F' & X' & R' & I). destruct (oinv_rest _ _ _ _ _ _ _ _ I Hq) as (R2 & H3 & H4 & _).
    split; [exact R2|]. exists (rem ++ R'). rewrite !bind_app. split.
    - cbn [mbind list_bind]. rewrite app_nil_r. transitivity (rem ++ (stored bc E s2 ++ R')); [solve_Permutation|]. rewrite H3. transitivity ((stored bc E s1 ++ rem) ++ inserted_values ls); [solve_Permutation|]. rewrite H1. solve_Permutation.
    - apply Forall2_app; [exact H2|]. cbn [mbind list_bind]. rewrite app_nil_r. exact H4.
  Qed.
  Lemma rest_facts s : rest s -> length (c_values s) = n /\ length (c_occ s) = n /\ c_count s = Z.of_nat (length (stored bc E s)).
  Proof. intros (C & F & X & qs & (H1 & _ & H2 & _) & _ & _ & _ & _ & _ & _ & _ & H3 & _). auto. Qed.
End top.
