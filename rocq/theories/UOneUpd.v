(** Kernels in which one thread erases and any number of threads insert: consequences of the invariant, and how it is kept (C67). *)
From Verif Require Import Base Conc SlotModel SlotSpec SlotProofs VectorModel VectorProofs VectorConcProofs UnorderedModel UnorderedSpec UnorderedProofs UConcModel UConcSpec UConcProofs UConcEnd UEraseModel UEraseProofs UMixVec UMixShape UOneVec UOneDefs.
From Verif Require UMixKnow.

Lemma at_elem (p : nat) (l : list nat) : p ∈ l -> 1 <= sumZ (SlotProofs.at_ p) l.
Proof. intros H. apply elem_of_list_lookup in H as [i Hi]. pose proof (sumZ_ge_elem (SlotProofs.at_ p) l i p (fun q _ => at_nonneg p q) Hi) as H. rewrite at_same in H. exact H. Qed.

Section upd.
  Context {K V : Type} (kf : V -> K) (hash : K -> Z) (keq : K -> K -> bool) (bc E : nat).
  Hypothesis HP : key_equality keq /\ hash_respects keq hash /\ sizes_ok bc E.
  Context (ie : nat) (M0 : list V).
  Notation n := (bc + E)%nat.
  Notation bkt := (bkt hash bc).
  Notation inC := (inC bc).
  Notation oinv := (oinv kf hash keq bc E ie M0).
  Notation heldt := (heldt kf hash bc).
  Notation thr := (thr kf hash keq bc E ie).
  Notation kn := (kn kf hash keq bc E).
  Notation stored := (stored bc E).
  Notation flat C := (C ≫= (fun l : list nat => l)).
  Implicit Types (s : cshared V) (t : cthread K V) (ls : list (cthread K V)) (C : list (list nat)) (F X : list nat) (R : list V) (op : cop K V).

  Section facts.
    Context s ls C F X R (I : oinv s ls C F X R).
    Lemma f_nodup : NoDup (flat C ++ (ls ≫= handt) ++ F ++ X).
    Proof using I. rewrite (o_perm _ _ _ _ _ _ _ _ _ _ _ _ _ I). apply NoDup_seq. Qed.
    Lemma f_range x : x ∈ flat C ++ (ls ≫= handt) ++ F ++ X -> (bc <= x < n)%nat.
    Proof using I. rewrite (o_perm _ _ _ _ _ _ _ _ _ _ _ _ _ I). intros H. apply elem_of_seq in H. lia. Qed.
    Lemma f_ge x : x ∈ flat C -> (bc <= x < n)%nat.
    Proof using I. intros H. apply f_range. apply elem_of_app. auto. Qed.
    Lemma f_inC x : inC C x -> (x < n)%nat.
    Proof using I. intros [H|H]; [lia|apply f_ge in H; lia]. Qed.
    Lemma f_hand i t x : ls !! i = Some t -> x ∈ handt t -> (bc <= x < n)%nat /\ ~ inC C x /\ x ∉ F.
    Proof using I.
      intros Hi Hx. assert (Hh : x ∈ ls ≫= handt) by (apply elem_of_list_bind; exists t; split; [exact Hx|eapply elem_of_list_lookup_2; exact Hi]).
      assert (Hr : (bc <= x < n)%nat) by (apply f_range; rewrite !elem_of_app; auto). split; [exact Hr|]. pose proof f_nodup as ND. apply NoDup_app in ND as (_ & N1 & N2). apply NoDup_app in N2 as (_ & N2 & _). split.
      - intros [H|H]; [lia|]. apply (N1 x H). rewrite !elem_of_app. auto.
      - intros H. apply (N2 x Hh). rewrite elem_of_app. auto.
    Qed.
    Lemma f_off x : (x < n)%nat -> exists o, c_off s !! x = Some o.
    Proof using I. intros H. apply lookup_lt_is_Some. destruct (o_len _ _ _ _ _ _ _ _ _ _ _ _ _ I) as (_ & -> & _). exact H. Qed.
    Lemma f_next x o : c_off s !! x = Some o -> exists j, next_entry x o = Some j /\ (j < n)%nat /\ nxt s x j.
    Proof using I.
      intros H. pose proof (o_off _ _ _ _ _ _ _ _ _ _ _ _ _ I x o H) as Hr. exists (Z.to_nat (Z.of_nat x + o)). unfold next_entry. rewrite (proj2 (Z.leb_le _ _)) by lia. split; [reflexivity|]. split; [lia|]. unfold nxt. rewrite H. f_equal. lia.
    Qed.
    Lemma f_occ x : (x < n)%nat -> exists b, c_occ s !! x = Some b.
    Proof using I. intros H. apply lookup_lt_is_Some. destruct (o_len _ _ _ _ _ _ _ _ _ _ _ _ _ I) as (_ & _ & -> & _). exact H. Qed.
    Lemma f_lock x : (x < n)%nat -> exists b, c_locks s !! x = Some b.
    Proof using I. intros H. apply lookup_lt_is_Some. destruct (o_len _ _ _ _ _ _ _ _ _ _ _ _ _ I) as (_ & _ & _ & -> & _). exact H. Qed.
    Lemma f_value x : (x < n)%nat -> exists b, c_values s !! x = Some b.
    Proof using I. intros H. apply lookup_lt_is_Some. destruct (o_len _ _ _ _ _ _ _ _ _ _ _ _ _ I) as (-> & _). exact H. Qed.
    Lemma f_which x : inC C x -> exists c, (c < bc)%nat /\ x ∈ c :: ch C c.
    Proof using I.
      intros [H|H]; [exists x; split; [exact H|left]|]. apply in_ch in H as (c & Hc & Hx). destruct (o_len _ _ _ _ _ _ _ _ _ _ _ _ _ I) as (_ & _ & _ & _ & EC). rewrite EC in Hc. exists c. split; [exact Hc|right; exact Hx].
    Qed.
    Lemma f_list_nodup c : (c < bc)%nat -> NoDup (c :: ch C c).
    Proof using I. intros Hc. exact (UMixKnow.linked_nodup _ _ _ (o_link _ _ _ _ _ _ _ _ _ _ _ _ _ I c Hc)). Qed.
    (** the last entry of a list is the one with offset 0 *)
    Lemma f_end x : inC C x -> c_off s !! x = Some 0 -> exists c, (c < bc)%nat /\ x = lend c (ch C c).
    Proof using I.
      intros H Ho. destruct (f_which x H) as (c & Hc & Hx). exists c. split; [exact Hc|]. pose proof (o_link _ _ _ _ _ _ _ _ _ _ _ _ _ I c Hc) as HL.
      assert (HS : exists P1 P2, ch C c = P1 ++ P2 /\ x = lend c P1).
      { apply elem_of_cons in Hx as [-> |Hx]; [exists [], (ch C c); auto|]. apply elem_of_list_split in Hx as (P1 & P2 & ->). exists (P1 ++ [x]), P2. rewrite <- app_assoc. split; [reflexivity|]. rewrite lend_snoc. reflexivity. }
      destruct HS as (P1 & P2 & EC & ->). rewrite EC in HL |- *. apply linked_split in HL. destruct P2 as [|y P2]; [rewrite app_nil_r; reflexivity|]. destruct HL as (H1 & H2 & _). rewrite Ho in H2. injection H2. lia.
    Qed.
    Lemma f_closed x y : inC C x -> nxt s x y -> inC C y.
    Proof using I.
      intros H Hn. destruct (f_which x H) as (c & Hc & Hx). pose proof (o_link _ _ _ _ _ _ _ _ _ _ _ _ _ I c Hc) as HL.
      assert (HS : exists P1 P2, ch C c = P1 ++ P2 /\ x = lend c P1).
      { apply elem_of_cons in Hx as [-> |Hx]; [exists [], (ch C c); auto|]. apply elem_of_list_split in Hx as (P1 & P2 & ->). exists (P1 ++ [x]), P2. rewrite <- app_assoc. split; [reflexivity|]. rewrite lend_snoc. reflexivity. }
      destruct HS as (P1 & P2 & EC & ->). rewrite EC in HL. apply linked_split in HL. unfold nxt in Hn. destruct P2 as [|z P2].
      - cbn in HL. rewrite HL in Hn. injection Hn as Hn. assert (y = lend c P1) as -> by lia. exact H.
      - destruct HL as (_ & H2 & _). rewrite H2 in Hn. injection Hn as Hn. assert (y = z) as -> by lia. right. apply (ch_in C c). rewrite EC. apply elem_of_app. right. left.
    Qed.
    Lemma f_reach x y : inC C x -> rtc (nxt s) x y -> inC C y.
    Proof using I. intros H Hr. induction Hr as [x|x y z Hxy Hr IH]; [exact H|]. apply IH. eapply f_closed; eauto. Qed.
    Lemma inC_dec x : inC C x \/ ~ inC C x.
    Proof. unfold UOneDefs.inC. destruct (decide (x < bc)%nat) as [?|?]; [left; left; assumption|]. destruct (decide (x ∈ flat C)) as [?|?]; [left; right; assumption|]. right. intros [?|?]; contradiction. Qed.
    Lemma f_start b e : (b < bc)%nat -> inC C e \/ ~ rtc (nxt s) b e.
    Proof using I. intros Hb. destruct (inC_dec e) as [?|Hn]; [auto|]. right. intros Hr. apply Hn. eapply f_reach; [|exact Hr]. left. exact Hb. Qed.
    (** walks of the erasing thread *)
    Lemma f_on_next b x o : (b < bc)%nat -> on C b x -> c_off s !! x = Some o -> o <> 0 -> exists j, next_entry x o = Some j /\ (j < n)%nat /\ on C b j.
    Proof using I.
      intros Hb (P1 & P2 & EC & ->) Ho Hne. destruct (f_next _ _ Ho) as (j & H1 & H2 & H3). exists j. split; [exact H1|]. split; [exact H2|]. pose proof (o_link _ _ _ _ _ _ _ _ _ _ _ _ _ I b Hb) as HL. rewrite EC in HL. apply linked_split in HL.
      destruct P2 as [|z P2]; [cbn in HL; congruence|]. destruct HL as (_ & H4 & _). unfold nxt in H3. rewrite H4 in H3. injection H3 as H3. assert (j = z) as -> by lia. exists (P1 ++ [z]), P2. rewrite <- app_assoc, lend_snoc. auto.
    Qed.
    Lemma f_on_start b : on C b b.
    Proof using. exists [], (ch C b). auto. Qed.
    Lemma f_ahead_start b p : p ∈ ch C b -> ahead C b b p.
    Proof using. intros H. apply elem_of_list_split in H as (P1 & P2 & H). exists [], P1, P2. auto. Qed.
    Lemma f_ahead_next b x p : (b < bc)%nat -> ahead C b x p -> exists o j, c_off s !! x = Some o /\ o <> 0 /\ next_entry x o = Some j /\ ((j = p /\ before C b x p) \/ (j <> p /\ ahead C b j p)).
    Proof using I.
      intros Hb (P1 & P2 & P3 & EC & ->). pose proof (o_link _ _ _ _ _ _ _ _ _ _ _ _ _ I b Hb) as HL. rewrite EC in HL. apply linked_split in HL.
      assert (HS : exists z P4, P2 ++ p :: P3 = z :: P4 /\ ((z = p /\ P2 = []) \/ (exists P2', P2 = z :: P2'))). { destruct P2 as [|z P2]; [exists p, P3; auto|exists z, (P2 ++ p :: P3); split; [reflexivity|right; eauto]]. }
      destruct HS as (z & P4 & ES & Hz). rewrite ES in HL. destruct HL as (H1 & H2 & H3). exists (Z.of_nat z - Z.of_nat (lend b P1)), z. split; [exact H2|]. split; [lia|].
      split; [unfold next_entry; rewrite (proj2 (Z.leb_le _ _)) by lia; f_equal; lia|].
      destruct Hz as [[-> ->]|[P2' ->]]; [left; split; [reflexivity|]; exists P1, P3; auto|]. right.
      assert (HA : ahead C b z p) by (exists (P1 ++ [z]), P2', P3; rewrite EC, <- app_assoc, lend_snoc; auto). split; [|exact HA].
      intros ->. pose proof (f_list_nodup b Hb) as ND. rewrite EC in ND. apply NoDup_cons in ND as [_ ND]. apply NoDup_app in ND as (_ & _ & ND). cbn [app] in ND. apply NoDup_cons in ND as [ND _]. apply ND. apply elem_of_app. right. left.
    Qed.
    Lemma f_occ_linked x : x ∈ flat C -> c_occ s !! x = Some true.
    Proof using I. exact (o_occ _ _ _ _ _ _ _ _ _ _ _ _ _ I x). Qed.
    Lemma f_held i t x : ls !! i = Some t -> x ∈ heldt t -> SlotProofs.lk (c_locks s) x = true.
    Proof using I.
      intros Hi Hx. pose proof (o_lock _ _ _ _ _ _ _ _ _ _ _ _ _ I x) as HL. pose proof (sumZ_ge_elem (fun t => sumZ (SlotProofs.at_ x) (heldt t)) ls i t) as H. cbn beta in H.
      assert (Hn : forall l, l ∈ ls -> 0 <= sumZ (SlotProofs.at_ x) (heldt l)) by (intros l _; apply sumZ_nonneg; intros; apply at_nonneg). specialize (H Hn Hi). pose proof (at_elem x _ Hx). destruct (SlotProofs.lk (c_locks s) x); [reflexivity|cbn in HL; lia].
    Qed.
    (** what a thread may change: entries in its hand, and linked entries of which it has the lock; no two threads have the same *)
    Definition own t (x : nat) : Prop := x ∈ handt t \/ (x ∈ heldt t /\ inC C x).
    Lemma f_excl i j t u x : i <> j -> ls !! i = Some t -> ls !! j = Some u -> own t x -> own u x -> False.
    Proof using I.
      intros Hij Hi Hj [H1|[H1 H2]] [H3|[H3 H4]].
      - destruct (bind_split handt ls i t Hi) as (rest & E1 & _ & E3). pose proof (E3 j u x (not_eq_sym Hij) Hj H3) as Hr. pose proof f_nodup as ND. rewrite E1 in ND. apply NoDup_app in ND as (_ & _ & ND). rewrite <- app_assoc in ND. apply NoDup_app in ND as (_ & ND & _). apply (ND x H1). rewrite elem_of_app. auto.
      - destruct (f_hand i t x Hi H1) as (_ & H5 & _). contradiction.
      - destruct (f_hand j u x Hj H3) as (_ & H5 & _). contradiction.
      - pose proof (o_lock _ _ _ _ _ _ _ _ _ _ _ _ _ I x) as HL. assert (Hn : forall l, l ∈ ls -> 0 <= sumZ (SlotProofs.at_ x) (heldt l)) by (intros l _; apply sumZ_nonneg; intros; apply at_nonneg).
        pose proof (sumZ_ge_two (fun t => sumZ (SlotProofs.at_ x) (heldt t)) ls i j t u Hn Hij Hi Hj) as H. cbn beta in H. pose proof (at_elem x _ H1). pose proof (at_elem x _ H3). destruct (SlotProofs.lk (c_locks s) x); cbn in HL; lia.
    Qed.
    Lemma f_vthread j q : (projt <$> ls) !! j = Some q -> vthread ie (c_ex s) j q.
    Proof using I.
      intros Hj. rewrite list_lookup_fmap in Hj. destruct (ls !! j) as [t|] eqn:Ht; [|discriminate]. injection Hj as <-. destruct (o_thr _ _ _ _ _ _ _ _ _ _ _ _ _ I j t Ht) as [T1 T2]. unfold projt. destruct (c_prog t) as [|op rest] eqn:Ep.
      - rewrite T2. left. reflexivity.
      - destruct (c_pc t) eqn:Epc; try (left; reflexivity); cbn [proj_at]; cbn [UOneDefs.kn] in T2.
        + right. left. apply T2.
        + right. right. destruct T2 as (H1 & _ & _ & H2 & H3). split; [apply (T1 op); [apply elem_of_app; right; left|exact H1]|]. split; [eauto|exact H3].
    Qed.
  End facts.

  (** *** what another thread knows stays true *)
  Lemma kn_stable s s' C C' op pc :
    (forall x, some_at s x -> some_at s' x) ->
    (forall x, x ∈ hand pc \/ (x ∈ held (bkt (op_key kf op)) pc /\ inC C x) -> c_values s' !! x = c_values s !! x /\ c_occ s' !! x = c_occ s !! x /\ c_off s' !! x = c_off s !! x) ->
    (forall x, x ∈ held (bkt (op_key kf op)) pc -> inC C x -> inC C' x) ->
    (forall x e, ~ rtc (nxt s) x e -> inC C' e \/ ~ rtc (nxt s') x e) ->
    (isE op -> ext C C') ->
    (written (c_ex s) (proj_at pc) -> written (c_ex s') (proj_at pc)) ->
    kn s C op pc -> kn s' C' op pc.
  Proof using HP.
    intros Hsome Hcell HinC Hrtc Hext Hw. pose proof (mx_bkt hash keq bc E HP (op_key kf op)) as Hb. set (b := bkt (op_key kf op)) in *.
    assert (Hbef : forall q p, isE op -> before C b q p -> before C' b q p) by (intros q p He; apply ext_before; apply Hext; exact He).
    assert (Hah : forall q p, isE op -> ahead C b q p -> ahead C' b q p) by (intros q p He; apply ext_ahead; apply Hext; exact He).
    assert (Hown : forall x, own_value s op x -> c_values s' !! x = c_values s !! x -> own_value s' op x) by (intros x; unfold own_value; destruct op; auto; intros H ->; exact H).
    assert (Hhit : forall x k, hit kf keq s x k -> c_values s' !! x = c_values s !! x -> hit kf keq s' x k) by (intros x k (v & H1 & H2) H3; exists v; rewrite H3; auto).
    assert (Hend : forall e, e ∈ held b pc -> c_off s !! e = Some 0 /\ inC C e -> c_off s' !! e = Some 0 /\ inC C' e). { intros e He [H1 H2]. destruct (Hcell e (or_intror (conj He H2))) as (_ & _ & ->). auto. }
    assert (Hbin : inC C b) by (left; exact Hb).
    assert (Hq : forall q p, before C b q p -> inC C q /\ inC C p) by (intros q p H; destruct (before_inC bc C b q p Hb H); split; [assumption|right; assumption]).
    assert (Hfk : forall c x, fheld b c = held b pc -> fk kf hash bc E s C op c x -> fk kf hash bc E s' C' op c x).
    { intros c x Eh. destruct c; cbn [fk]; auto.
      - intros (H1 & H2 & H3). split; [exact H1|]. split; [exact H2|]. intros H4. apply Hend; [rewrite <- Eh; left|]. apply H3. exact H4.
      - intros [H1 H2]. split; [exact H1|]. eapply ext_on; [apply Hext; exact H1|exact H2].
      - intros [H1 H2]. split; [exact H1|]. apply Hbef; assumption. }
    assert (Hek : forall c x, ek bc E s C c x -> ek bc E s' C' c x \/ exists e, c = EIns2 e /\ inC C e /\ ~ inC C' e).
    { intros c x. destruct c as [|e]; cbn [ek]; [auto|]. intros [H1 [H2|H2]]; [|left; split; [exact H1|]; apply Hrtc; exact H2]. destruct (inC_dec C' e) as [H3|H3]; [left; auto|right; eauto]. }
    assert (Hek' : forall c x, (forall e, c = EIns2 e -> held b pc = [e]) -> ek bc E s C c x -> ek bc E s' C' c x).
    { intros c x Hh He. destruct (Hek c x He) as [H|(e & Ec & H1 & H2)]; [exact H|]. exfalso. apply H2. apply HinC; [rewrite (Hh e Ec); left|exact H1]. }
    assert (Hpk : forall c p q same, c = PEr2 p q same -> isE op -> held b pc = [p; q] -> pk kf hash keq bc s C op c -> pk kf hash keq bc s' C' op c).
    { intros c p q same -> He Hh. cbn [pk]. intros [H1 H2]. split; [apply Hbef; assumption|]. intros H3. apply Hhit; [apply H2; exact H3|]. apply Hcell. right. rewrite Hh. split; [left|]. apply (Hq q p H1). }
    destruct pc; cbn [UOneDefs.kn]; try (fold b); auto.
    - (* FOcc *) intros [H1 H2]. split; [exact H1|]. apply Hfk; [reflexivity|exact H2].
    - (* FVal *) intros (H1 & H2 & H3 & H4). split; [exact H1|]. split; [apply Hfk; [reflexivity|exact H2]|]. split; [apply Hsome; exact H3|]. destruct c; auto.
      intros Hx. cbn [fk] in H2. destruct H2 as [_ H2]. destruct (Hcell p) as (_ & -> & _); [right; split; [left|rewrite H2; exact Hbin]|]. apply H4. exact Hx.
    - intros [H1 H2]. split; [exact H1|]. apply Hfk; [reflexivity|exact H2].
    - intros [H1 H2]. split; [exact H1|]. apply Hfk; [reflexivity|exact H2].
    - intros (H1 & H2 & H3). split; [exact H1|]. split; [exact H2|]. apply Hek'; [intros e ->; reflexivity|exact H3].
    - intros (H1 & H2 & H3). split; [exact H1|]. split; [exact H2|]. apply Hek'; [intros e ->; reflexivity|exact H3].
    - intros (H1 & H2 & H3 & H4). split; [exact H1|]. split; [exact H2|]. split; [apply Hah; assumption|]. destruct c; [exact H4|]. eapply Hpk; eauto.
    - intros (H1 & H2 & H3 & H4). split; [exact H1|]. split; [exact H2|]. split; [apply Hah; assumption|]. destruct c; [exact H4|]. eapply Hpk; eauto.
    - (* IConB *) intros [H1 H2]. destruct (Hcell b) as (_ & -> & _); [right; split; [left|exact Hbin]|]. auto.
    - intros [H1 H2]. destruct (Hcell b) as (Ev & -> & _); [right; split; [left|exact Hbin]|]. auto.
    - intros [H1 H2]. destruct (Hcell b) as (Ev & -> & _); [right; split; [left|exact Hbin]|]. auto.
    - (* IPop *) intros (H1 & H2 & H3). split; [exact H1|]. split; [apply Hend; [left|exact H2]|exact H3].
    - intros (H1 & H2 & H3). split; [exact H1|]. split; [apply Hend; [left|exact H2]|]. destruct (Hcell p) as (_ & -> & _); [left; left|exact H3].
    - intros (H1 & H2 & H3). destruct (Hcell p) as (Ev & -> & _); [left; left|]. split; [auto|]. split; [apply Hend; [left|exact H2]|exact H3].
    - intros (H1 & H2 & H3 & H4). destruct (Hcell p) as (Ev & -> & ->); [left; left|]. split; [auto|]. split; [apply Hend; [left|exact H2]|auto].
    - intros (H1 & H2 & H3 & H4). destruct (Hcell p) as (Ev & -> & ->); [left; left|]. split; [auto|]. split; [apply Hend; [left|exact H2]|auto].
    - intros (H1 & H2 & H3 & H4). destruct (Hcell p) as (Ev & -> & ->); [left; left|]. split; [auto|]. split; [apply Hend; [left|exact H2]|auto].
    - (* XResetB *) intros (H1 & -> & H3 & H4). destruct (Hcell b) as (Ev & -> & _); [right; split; [left|exact Hbin]|]. auto.
    - intros (H1 & H2 & H3). auto.
    - intros (H1 & H2 & H3). auto.
    - intros [H1 H2]. auto.
    - intros [H1 H2]. auto.
    - (* XTest *) intros (H1 & H2 & H3). destruct (Hcell p) as (Ev & _ & _); [right; split; [left|apply (Hq _ _ H2)]|]. auto.
    - intros (H1 & H2 & H3 & H4). destruct (Hcell p) as (Ev & _ & ->); [right; split; [left|apply (Hq _ _ H2)]|]. auto.
    - intros (H1 & H2 & H3 & H4). destruct (Hcell p) as (Ev & _ & ->); [right; split; [left|apply (Hq _ _ H2)]|]. auto.
    - intros (H1 & H2 & H3 & H4). destruct (Hcell p) as (Ev & _ & Eo); [right; split; [left|apply (Hq _ _ H2)]|]. destruct (Hcell q) as (_ & _ & Eq); [right; split; [right; left|apply (Hq _ _ H2)]|]. rewrite Eo, Eq. auto.
    - (* XReset *) intros (H1 & H2 & H3 & H4). destruct (Hcell p) as (Ev & -> & _); [left; left|]. auto.
    - intros (H1 & H2 & H3 & H4). destruct (Hcell p) as (Ev & -> & _); [left; left|]. auto.
    - intros (H1 & H2 & H3 & H4). destruct (Hcell p) as (Ev & -> & _); [left; left|]. auto.
    - intros (H1 & H2 & H3 & H4 & H5). destruct (Hcell p) as (Ev & -> & _); [left; left|]. split; [exact H1|]. split; [exact H2|]. split; [exact H3|]. split; [exact H4|]. apply Hw. exact H5.
  Qed.

  Lemma others s ls C F X R i t s' C' x : oinv s ls C F X R -> ls !! i = Some t -> own C t x ->
    (forall y, y <> x -> c_values s' !! y = c_values s !! y /\ c_occ s' !! y = c_occ s !! y /\ c_off s' !! y = c_off s !! y) ->
    (forall y, some_at s y -> some_at s' y) ->
    (forall j u y, j <> i -> ls !! j = Some u -> y ∈ heldt u -> inC C y -> inC C' y) ->
    (forall y e, ~ rtc (nxt s) y e -> inC C' e \/ ~ rtc (nxt s') y e) ->
    (i <> ie -> ext C C') ->
    c_ex s' = c_ex s ->
    forall j u, j <> i -> ls !! j = Some u -> thr s' C' j u.
  Proof using HP.
    intros I Hi Hx Hcell Hsome HinC Hrtc Hext Hex j u Hji Hj. destruct (o_thr _ _ _ _ _ _ _ _ _ _ _ _ _ I j u Hj) as [T1 T2]. split; [exact T1|]. destruct (c_prog u) as [|op rest] eqn:Ep; [exact T2|].
    assert (Eh : held (bkt (op_key kf op)) (c_pc u) = heldt u) by (unfold UOneDefs.heldt, tb; rewrite Ep; reflexivity).
    refine (kn_stable s s' C C' op (c_pc u) Hsome _ _ Hrtc _ _ T2).
    - intros y Hy. apply Hcell. intros ->. eapply (f_excl s ls C F X R I i j t u x); eauto. rewrite Eh in Hy. exact Hy.
    - intros y Hy. rewrite Eh in Hy. eapply HinC; eauto.
    - intros He. apply Hext. intros ->. apply Hji. apply (T1 op); [apply elem_of_app; right; left|exact He].
    - rewrite Hex. auto.
  Qed.
  (** nothing but locks, counter or vector changed *)
  Lemma others_cells s ls C F X R i s' : oinv s ls C F X R -> c_values s' = c_values s -> c_occ s' = c_occ s -> c_off s' = c_off s ->
    (forall j u, j <> i -> ls !! j = Some u -> written (c_ex s) (projt u) -> written (c_ex s') (projt u)) ->
    forall j u, j <> i -> ls !! j = Some u -> thr s' C j u.
  Proof using HP.
    intros I Ev Eo Ef Hw j u Hji Hj. destruct (o_thr _ _ _ _ _ _ _ _ _ _ _ _ _ I j u Hj) as [T1 T2]. split; [exact T1|]. destruct (c_prog u) as [|op rest] eqn:Ep; [exact T2|].
    refine (kn_stable s s' C C op (c_pc u) _ _ _ _ _ _ T2).
    - unfold some_at. rewrite Ev. auto.
    - rewrite Ev, Eo, Ef. auto.
    - auto.
    - intros x e H. right. unfold nxt in *. rewrite Ef. exact H.
    - intros _. apply ext_refl.
    - apply (Hw j u Hji Hj).
  Qed.

  (** *** one step *)
  Lemma upd s ls C F X R i t s' t' C' F' X' R' : oinv s ls C F X R -> ls !! i = Some t ->
    length (c_values s') = length (c_values s) /\ length (c_off s') = length (c_off s) /\ length (c_occ s') = length (c_occ s) /\ length (c_locks s') = length (c_locks s) /\ length C' = length C ->
    flat C' ++ handt t' ++ F' ++ X' ≡ₚ flat C ++ handt t ++ F ++ X ->
    (forall c, (c < bc)%nat -> linked (c_off s') c (ch C' c)) ->
    (forall x, x ∈ flat C' -> c_occ s' !! x = Some true) ->
    (forall x, x ∈ F' -> c_occ s' !! x = Some false) ->
    (forall x, c_occ s' !! x = Some true -> some_at s' x) ->
    (forall x o, c_off s' !! x = Some o -> 0 <= Z.of_nat x + o < Z.of_nat n) ->
    (forall x, Z.b2z (SlotProofs.lk (c_locks s') x) + sumZ (SlotProofs.at_ x) (heldt t) = Z.b2z (SlotProofs.lk (c_locks s) x) + sumZ (SlotProofs.at_ x) (heldt t')) ->
    c_count s' + Z.of_nat (length (stored s)) + pendt t = c_count s + Z.of_nat (length (stored s')) + pendt t' ->
    inv (T:=Z) (C:=Z) E vm (fun _ => True) (fun w => sumZ w (Z.of_nat <$> F')) (c_ex s') (<[i := projt t']> (projt <$> ls)) ->
    stored s' ++ R' ++ inst t ≡ₚ stored s ++ R ++ inst t' ->
    (i = ie /\ Forall2 (fun v k => keq (kf v) k = true) R' (erst t')) \/ (R' = R /\ erst t' = erst t) ->
    (forall j u, j <> i -> ls !! j = Some u -> thr s' C' j u) ->
    thr s' C' i t' ->
    oinv s' (<[i := t']> ls) C' F' X' R'.
  Proof using HP.
    intros I Hi (L1 & L2 & L3 & L4 & L5) HP' HL HO HF HV HOf HLk HCn HVec HCs HR HOth HSelf.
    assert (Hlt : (i < length ls)%nat) by (eapply lookup_lt_Some; exact Hi). split.
    - destruct (o_len _ _ _ _ _ _ _ _ _ _ _ _ _ I) as (A1 & A2 & A3 & A4 & A5). repeat split; congruence.
    - rewrite <- (o_perm _ _ _ _ _ _ _ _ _ _ _ _ _ I). destruct (bind_split handt ls i t Hi) as (rest & E1 & E2 & _). rewrite E1, (E2 t'). transitivity (rest ++ (flat C' ++ handt t' ++ F' ++ X')); [solve_Permutation|]. rewrite HP'. solve_Permutation.
    - exact HL.
    - exact HO.
    - exact HF.
    - exact HV.
    - exact HOf.
    - intros x. rewrite (sumZ_insert _ _ _ _ _ Hi). cbn beta. pose proof (o_lock _ _ _ _ _ _ _ _ _ _ _ _ _ I x) as H. pose proof (HLk x). lia.
    - rewrite (sumZ_insert _ _ _ _ _ Hi). pose proof (o_count _ _ _ _ _ _ _ _ _ _ _ _ _ I). lia.
    - rewrite list_fmap_insert. exact HVec.
    - pose proof (o_cons _ _ _ _ _ _ _ _ _ _ _ _ _ I) as HC. destruct (bind_split inst ls i t Hi) as (rest & E1 & E2 & _). rewrite E1 in HC. rewrite (E2 t').
      apply (Permutation_app_inv_r (inst t)). rewrite <- app_assoc, HCs, app_assoc, HC. solve_Permutation.
    - unfold erasedL. destruct HR as [[-> HR]|[-> HR]]; [rewrite list_lookup_insert by exact Hlt; exact HR|]. destruct (decide (i = ie)) as [<- |Hne].
      + rewrite list_lookup_insert by exact Hlt. rewrite HR. pose proof (o_rem _ _ _ _ _ _ _ _ _ _ _ _ _ I) as H. unfold erasedL in H. rewrite Hi in H. exact H.
      + rewrite list_lookup_insert_ne by exact Hne. exact (o_rem _ _ _ _ _ _ _ _ _ _ _ _ _ I).
    - intros j u Hj. destruct (decide (i = j)) as [<- |Hne]; [rewrite list_lookup_insert in Hj by exact Hlt; injection Hj as <-; exact HSelf|]. rewrite list_lookup_insert_ne in Hj by exact Hne. apply HOth; [congruence|exact Hj].
  Qed.
  Lemma stored_same s s' : c_values s' = c_values s -> c_occ s' = c_occ s -> stored s' = stored s.
  Proof. intros E1 E2. unfold UOneDefs.stored, sv. rewrite E1, E2. reflexivity. Qed.
  (** steps that leave values, offsets and occupied bits as they are *)
  Lemma upd_cells s ls C F X R i t s' t' F' X' : oinv s ls C F X R -> ls !! i = Some t ->
    c_values s' = c_values s -> c_off s' = c_off s -> c_occ s' = c_occ s -> length (c_locks s') = length (c_locks s) ->
    handt t' ++ F' ++ X' ≡ₚ handt t ++ F ++ X ->
    (forall x, x ∈ F' -> c_occ s !! x = Some false) ->
    (forall x, Z.b2z (SlotProofs.lk (c_locks s') x) + sumZ (SlotProofs.at_ x) (heldt t) = Z.b2z (SlotProofs.lk (c_locks s) x) + sumZ (SlotProofs.at_ x) (heldt t')) ->
    c_count s' + pendt t = c_count s + pendt t' ->
    inv (T:=Z) (C:=Z) E vm (fun _ => True) (fun w => sumZ w (Z.of_nat <$> F')) (c_ex s') (<[i := projt t']> (projt <$> ls)) ->
    inst t' = inst t -> erst t' = erst t ->
    (forall j u, j <> i -> ls !! j = Some u -> written (c_ex s) (projt u) -> written (c_ex s') (projt u)) ->
    thr s' C i t' ->
    oinv s' (<[i := t']> ls) C F' X' R.
  Proof using HP.
    intros I Hi Ev Ef Eo El Hperm HF HLk HCn HVec HIn HEr Hw HSelf. refine (upd s ls C F X R i t s' t' C F' X' R I Hi _ _ _ _ _ _ _ HLk _ HVec _ _ _ HSelf).
    - rewrite Ev, Ef, Eo, El. auto.
    - rewrite Hperm. reflexivity.
    - intros c Hc. rewrite Ef. exact (o_link _ _ _ _ _ _ _ _ _ _ _ _ _ I c Hc).
    - intros x Hx. rewrite Eo. exact (o_occ _ _ _ _ _ _ _ _ _ _ _ _ _ I x Hx).
    - intros x Hx. rewrite Eo. exact (HF x Hx).
    - intros x. rewrite Eo. unfold some_at. rewrite Ev. exact (o_val _ _ _ _ _ _ _ _ _ _ _ _ _ I x).
    - intros x o. rewrite Ef. exact (o_off _ _ _ _ _ _ _ _ _ _ _ _ _ I x o).
    - rewrite (stored_same s s' Ev Eo). lia.
    - rewrite (stored_same s s' Ev Eo), HIn. reflexivity.
    - right. auto.
    - exact (others_cells s ls C F X R i s' I Ev Eo Ef Hw).
  Qed.
  (** steps without effect on the container *)
  Lemma upd_same s ls C F X R i t t' : oinv s ls C F X R -> ls !! i = Some t ->
    handt t' = handt t -> heldt t' = heldt t -> pendt t' = pendt t -> inst t' = inst t -> erst t' = erst t ->
    (projt t' = projt t \/ (projt t = fresh_call [] /\ exists prog, projt t' = fresh_call prog /\ forall qo, qo ∈ prog -> op_wf qo)) ->
    thr s C i t' -> oinv s (<[i := t']> ls) C F X R.
  Proof using HP.
    intros I Hi H1 H2 H3 H4 H5 H6 H7. refine (upd_cells s ls C F X R i t s t' F X I Hi eq_refl eq_refl eq_refl eq_refl _ _ _ _ _ H4 H5 _ H7).
    - rewrite H1. reflexivity.
    - exact (o_free _ _ _ _ _ _ _ _ _ _ _ _ _ I).
    - intros x. rewrite H2. reflexivity.
    - lia.
    - assert (Hpi : (projt <$> ls) !! i = Some (projt t)) by (rewrite list_lookup_fmap, Hi; reflexivity). pose proof (o_vec _ _ _ _ _ _ _ _ _ _ _ _ _ I) as HV. destruct H6 as [-> |(H6 & prog & -> & Hwf)].
      + rewrite list_insert_id by exact Hpi. exact HV.
      + eapply vec_enter; [exact HV|rewrite Hpi, H6; reflexivity|exact Hwf].
    - auto.
  Qed.
  (** taking and giving back locks *)
  Lemma upd_lock s ls C F X R i t t' x b : oinv s ls C F X R -> ls !! i = Some t -> (x < n)%nat ->
    (if b : bool then SlotProofs.lk (c_locks s) x = false /\ heldt t' ≡ₚ x :: heldt t else heldt t ≡ₚ x :: heldt t') ->
    handt t' = handt t -> pendt t' = pendt t -> inst t' = inst t -> erst t' = erst t -> projt t' = projt t ->
    thr (put_lock s x b) C i t' -> oinv (put_lock s x b) (<[i := t']> ls) C F X R.
  Proof using HP.
    intros I Hi Hx Hb H1 H3 H4 H5 H6 H7.
    assert (Hlx : forall y, SlotProofs.lk (c_locks (put_lock s x b)) y = if decide (x = y) then b else SlotProofs.lk (c_locks s) y).
    { intros y. cbn [put_lock c_locks]. unfold SlotProofs.lk. destruct (decide (x = y)) as [<- |Hne]; [rewrite list_lookup_insert; [reflexivity|]; destruct (o_len _ _ _ _ _ _ _ _ _ _ _ _ _ I) as (_ & _ & _ & -> & _); exact Hx|rewrite list_lookup_insert_ne by exact Hne; reflexivity]. }
    refine (upd_cells s ls C F X R i t (put_lock s x b) t' F X I Hi eq_refl eq_refl eq_refl _ _ _ _ _ _ H4 H5 _ H7).
    - cbn. apply insert_length.
    - rewrite H1. reflexivity.
    - exact (o_free _ _ _ _ _ _ _ _ _ _ _ _ _ I).
    - intros y. rewrite Hlx. destruct b.
      + destruct Hb as [Hb1 Hb2]. rewrite (perm_sum _ _ (SlotProofs.at_ y) Hb2). cbn [sumZ]. unfold SlotProofs.at_ at 2. destruct (decide (x = y)) as [<- |Hne]; [rewrite Hb1, decide_True by reflexivity; cbn; lia|rewrite decide_False by congruence; lia].
      + assert (Hh : SlotProofs.lk (c_locks s) x = true) by (eapply (f_held _ _ _ _ _ _ I); [exact Hi|rewrite Hb; left]).
        rewrite (perm_sum _ _ (SlotProofs.at_ y) Hb). cbn [sumZ]. unfold SlotProofs.at_ at 1. destruct (decide (x = y)) as [<- |Hne]; [rewrite Hh, decide_True by reflexivity; cbn; lia|rewrite decide_False by congruence; lia].
    - cbn. lia.
    - rewrite H6, list_insert_id by (rewrite list_lookup_fmap, Hi; reflexivity). exact (o_vec _ _ _ _ _ _ _ _ _ _ _ _ _ I).
    - auto.
  Qed.
  (** the stored values after a change of one entry *)
  Lemma stored_split s p : (p < n)%nat -> length (c_values s) = n -> length (c_occ s) = n -> exists A B, forall v o,
    omap (sv (put_occ (put_value s p v) p o)) (seq 0 n) = A ++ (match o, v with true, Some v => [v] | _, _ => [] end) ++ B.
  Proof.
    intros Hp Hv Ho. exists (omap (sv s) (seq 0 p)), (omap (sv s) (seq (S p) (n - S p))). intros v o.
    assert (Es : seq 0 n = seq 0 p ++ p :: seq (S p) (n - S p)). { replace n with (p + S (n - S p))%nat at 1 by lia. rewrite seq_app. cbn [Nat.add seq]. reflexivity. }
    rewrite Es, omap_app. f_equal.
    - apply list_omap_ext. apply Forall_Forall2_diag. apply Forall_forall. intros x Hx. apply elem_of_seq in Hx. unfold sv. cbn. rewrite !list_lookup_insert_ne by lia. reflexivity.
    - cbn [omap list_omap]. unfold sv at 1. cbn [put_occ put_value c_occ c_values]. rewrite !list_lookup_insert by (rewrite ?Hv, ?Ho; exact Hp).
      assert (Er : omap (sv (put_occ (put_value s p v) p o)) (seq (S p) (n - S p)) = omap (sv s) (seq (S p) (n - S p))).
      { apply list_omap_ext. apply Forall_Forall2_diag. apply Forall_forall. intros x Hx. apply elem_of_seq in Hx. unfold sv. cbn. rewrite !list_lookup_insert_ne by lia. reflexivity. }
      destruct o, v; cbn [app]; unfold omap in Er |- *; rewrite Er; reflexivity.
  Qed.
End upd.
