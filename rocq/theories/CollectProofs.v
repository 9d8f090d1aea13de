From Verif Require Import Base Conc SlotModel VectorModel BitsetModel BitsetProofs UnorderedModel UnorderedSpec UnorderedProofs UnorderedSeqProofs CollectModel CollectSpec.

Section collect.
  Context (occ : list bool) (n : nat) (Hn : length occ = n) (Hmax : Z.of_nat n <= INT_MAX).

  Definition wanted (is : list nat) : list nat := filter (fun p => occ !! p = Some true) is.
  (** positions a thread will still take a ticket for *)
  Definition pend (t : collect_thread) : list nat := match t.2 with CTake i => [i] | _ => [] end ++ wanted t.1.
  Definition pends (ts : list collect_thread) : list nat := concat (pend <$> ts).

  Lemma pends_insert ts k t t' : ts !! k = Some t -> pends (<[k := t']> ts) ++ pend t ≡ₚ pends ts ++ pend t'.
  Proof.
    unfold pends. revert k. induction ts as [|a ts IH]; intros [|k] H; cbn in H; try discriminate.
    - injection H as ->. cbn. solve_Permutation.
    - cbn. rewrite <- !app_assoc. rewrite (IH k H). reflexivity.
  Qed.

  Record cinv (s : collector) (ts : list collect_thread) (G : list nat) : Prop := {
    ci_occ : r_occ s = occ;
    ci_len : length (r_idx s) = n;
    ci_end : r_end s = Z.of_nat (length G);
    ci_perm : pends ts ++ G ≡ₚ occupied_in occ;
    ci_idx : forall t, t ∈ ts -> forall i, i ∈ t.1 -> (i < n)%nat;
    ci_store : forall k is i j, ts !! k = Some (is, CStore i j) -> exists m, j = Z.of_nat m /\ G !! m = Some i;
    ci_slot : forall m i, G !! m = Some i -> r_idx s !! m = Some (Z.of_nat i) \/ exists k is, ts !! k = Some (is, CStore i (Z.of_nat m));
    ci_excl : forall k k' is is' i i' j, ts !! k = Some (is, CStore i j) -> ts !! k' = Some (is', CStore i' j) -> k = k';
    ci_def : forall t, t ∈ ts -> t.2 <> CUndefined;
  }.

  Lemma occupied_length : (length (occupied_in occ) <= n)%nat.
  Proof using Hn. unfold occupied_in. rewrite <- Hn. etransitivity; [apply filter_length|]. rewrite seq_length. reflexivity. Qed.

  Lemma cinv_start idx progs : length idx = n -> dealt n progs -> cinv {| r_occ := occ; r_end := 0; r_idx := idx |} (collect_threads progs) [].
  Proof using Hn.
    intros Hi Hd.
    assert (Hat : forall k t, collect_threads progs !! k = Some t -> exists is, t = (is, CTest) /\ progs !! k = Some is).
    { intros k t. unfold collect_threads. rewrite list_lookup_fmap, fmap_Some. intros (is & E & ->). exists is. auto. }
    split; cbn; auto.
    - rewrite app_nil_r. unfold occupied_in. rewrite Hn, <- Hd. unfold pends, collect_threads. clear Hd Hat.
      induction progs as [|p progs IH]; [reflexivity|]. cbn. unfold wanted. rewrite filter_app. rewrite <- IH. reflexivity.
    - intros t [k Ht]%elem_of_list_lookup i Hin. destruct (Hat k t Ht) as (is & -> & Hp). cbn in Hin.
      assert (M : i ∈ seq 0 n). { rewrite <- Hd. apply elem_of_list_In, in_concat. exists is. rewrite <- !elem_of_list_In. split; [eapply elem_of_list_lookup_2; exact Hp|exact Hin]. }
      apply elem_of_seq in M. lia.
    - intros k is i j Ht. destruct (Hat _ _ Ht) as (is' & E & _). discriminate.
    - intros m i Hm. rewrite lookup_nil in Hm. discriminate.
    - intros k k' is is' i i' j Ht. destruct (Hat _ _ Ht) as (is2 & E & _). discriminate.
    - intros t [k Ht]%elem_of_list_lookup. destruct (Hat _ _ Ht) as (is2 & -> & _). discriminate.
  Qed.

  Lemma elem_insert {A} (l : list A) k x y : y ∈ <[k := x]> l -> y = x \/ y ∈ l.
  Proof.
    intros [m H]%elem_of_list_lookup. destruct (decide (k = m)) as [<-|N].
    - apply list_lookup_insert_Some in H. destruct H as [(_ & <- & _)|(N & _)]; [left; reflexivity|contradiction].
    - rewrite list_lookup_insert_ne in H by exact N. right. eapply elem_of_list_lookup_2. exact H.
  Qed.

  Lemma cinv_step s ts G s' ts' : cinv s ts G -> cstep collect_step (s, ts) (s', ts') -> exists G', cinv s' ts' G'.
  Proof using Hn Hmax.
    intros I Hs. inversion Hs as [s0 ls0 k t s1 t' Hk Ht]; subst. clear Hs.
    assert (Hlt : (k < length ts)%nat) by (apply lookup_lt_Some in Hk; exact Hk).
    assert (Hbound : (length G + length (pend t) <= n)%nat).
    { pose proof (ci_perm _ _ _ I) as P. apply Permutation_length in P. rewrite app_length in P. pose proof occupied_length.
      assert (Q : (length (pend t) <= length (pends ts))%nat); [|lia]. clear - Hk. unfold pends. revert k Hk.
      induction ts as [|a ts IH]; intros [|k] Hk; cbn in *; try discriminate; rewrite app_length; [injection Hk as ->; lia|].
      specialize (IH k Hk). lia. }
    destruct I as [Iocc Ilen Iend Iperm Iidx Istore Islot Iexcl Idef].
    assert (Hin : t ∈ ts) by (eapply elem_of_list_lookup_2; exact Hk).
    destruct t as [is pc]. destruct pc as [|i|i j|].
    - destruct is as [|i is]; [discriminate|]. cbn in Ht. rewrite Iocc in Ht.
      assert (Hil : (i < n)%nat) by (apply (Iidx _ Hin i); constructor).
      destruct (lookup_lt_is_Some_2 occ i ltac:(lia)) as [b Eb]. rewrite Eb in Ht.
      assert (Ht' : exists pc', t' = (is, pc') /\ s' = s /\ (pc' = CTest \/ pc' = CTake i) /\ pend (is, pc') = pend (i :: is, CTest)).
      { destruct b; injection Ht as <- <-; eexists; (split; [reflexivity|]); (split; [reflexivity|]).
        - split; [right; reflexivity|]. unfold pend, wanted. cbn [fst snd app]. rewrite filter_cons_True by exact Eb. reflexivity.
        - split; [left; reflexivity|]. unfold pend, wanted. cbn [fst snd app]. rewrite filter_cons_False by congruence. reflexivity. }
      destruct Ht' as (pc' & -> & -> & Hpc & Ep). exists G.
      assert (Hat : forall m is' i' j', <[k := (is, pc')]> ts !! m = Some (is', CStore i' j') -> ts !! m = Some (is', CStore i' j')).
      { intros m is' i' j' H. apply list_lookup_insert_Some in H. destruct H as [(_ & E & _)|(_ & H)]; [|exact H]. exfalso. destruct Hpc; subst pc'; discriminate. }
      split; auto.
      + pose proof (pends_insert ts k _ (is, pc') Hk) as P. rewrite Ep in P. apply Permutation_app_inv_r in P. rewrite P. exact Iperm.
      + intros t [->|Hti]%elem_insert i0 Hi0; [|eauto]. cbn in Hi0. apply (Iidx _ Hin). cbn. constructor. exact Hi0.
      + intros m is' i' j' H%Hat. exact (Istore _ _ _ _ H).
      + intros m i0 Hm. destruct (Islot m i0 Hm) as [?|(k0 & is0 & H0)]; [left; assumption|]. right. exists k0, is0.
        rewrite list_lookup_insert_ne; [exact H0|]. intros ->. pose proof (eq_trans (eq_sym H0) Hk). discriminate.
      + intros k1 k2 is1 is2 i1 i2 j' H1%Hat H2%Hat. eapply Iexcl; eassumption.
      + intros t [->|Hti]%elem_insert; [|eauto]. cbn. destruct Hpc; subst pc'; discriminate.
    - assert (Ht2 : collect_step k s (is, CTake i) = Some ({| r_occ := r_occ s; r_end := to_int32 (r_end s + 1); r_idx := r_idx s |}, (is, CStore i (r_end s)))) by (destruct is; reflexivity).
      rewrite Ht2 in Ht. clear Ht2. injection Ht as <- <-. cbn in Hbound. exists (G ++ [i]).
      assert (Hat : forall m is' i' j', <[k := (is, CStore i (r_end s))]> ts !! m = Some (is', CStore i' j') ->
                    m = k /\ i' = i /\ j' = Z.of_nat (length G) \/ m <> k /\ ts !! m = Some (is', CStore i' j')).
      { intros m is' i' j' H. apply list_lookup_insert_Some in H. destruct H as [(-> & E & _)|(N & H)]; [|right; split; [congruence|exact H]].
        left. injection E as <- <- <-. auto. }
      split; cbn [r_occ r_end r_idx]; auto.
      + rewrite Iend, app_length. cbn. rewrite to_int32_small; [lia|]. pose proof (eq_refl : INT_MAX = 2 ^ 31 - 1). lia.
      + pose proof (pends_insert ts k _ (is, CStore i (r_end s)) Hk) as P. unfold pend in P. cbn [fst snd app] in P.
        assert (P2 : pends (<[k:=(is, CStore i (r_end s))]> ts) ++ [i] ≡ₚ pends ts).
        { apply (Permutation_app_inv_r (wanted is)). rewrite <- app_assoc. exact P. }
        rewrite (Permutation_app_comm G [i]), app_assoc, P2. exact Iperm.
      + intros t [->|Hti]%elem_insert i0 Hi0; [|eauto]. exact (Iidx _ Hin i0 Hi0).
      + intros m is' i' j' [(-> & -> & ->)|(N & H)]%Hat.
        * exists (length G). split; [reflexivity|]. rewrite lookup_app_r, Nat.sub_diag by lia. reflexivity.
        * destruct (Istore _ _ _ _ H) as (m0 & -> & E). exists m0. split; [reflexivity|]. apply lookup_app_l_Some. exact E.
      + intros m i0 Hm. apply lookup_app_Some in Hm. destruct Hm as [Hm|[Hge Hm]].
        * destruct (Islot m i0 Hm) as [?|(k0 & is0 & H0)]; [left; assumption|]. right. exists k0, is0.
          rewrite list_lookup_insert_ne; [exact H0|]. intros ->. pose proof (eq_trans (eq_sym H0) Hk). discriminate.
        * right. destruct (m - length G)%nat as [|n1] eqn:Em; [|destruct n1; discriminate]. cbn in Hm. injection Hm as <-.
          exists k, is. rewrite list_lookup_insert by exact Hlt. do 3 f_equal. lia.
      + intros k1 k2 is1 is2 i1 i2 j' H1%Hat H2%Hat.
        assert (Fresh : forall k0 is0 i0, ts !! k0 = Some (is0, CStore i0 (Z.of_nat (length G))) -> False).
        { intros k0 is0 i0 H. destruct (Istore _ _ _ _ H) as (m0 & E & L). apply lookup_lt_Some in L. lia. }
        destruct H1 as [(-> & -> & ->)|(N1 & H1)], H2 as [(-> & -> & E2)|(N2 & H2)]; [reflexivity| | |].
        * destruct (Fresh _ _ _ H2).
        * subst j'. destruct (Fresh _ _ _ H1).
        * eapply Iexcl; eassumption.
      + intros t [->|Hti]%elem_insert; [discriminate|eauto].
    - destruct (Istore _ _ _ _ Hk) as (m & -> & Em).
      assert (Hm : (m < length G)%nat) by (apply lookup_lt_Some in Em; exact Em).
      destruct (lookup_lt_is_Some_2 (r_idx s) m ltac:(lia)) as [old Eo].
      assert (Ez : zat (r_idx s) (Z.of_nat m) = Ret old).
      { unfold zat. rewrite (proj2 (Z.leb_le _ _)) by lia. rewrite Nat2Z.id, Eo. reflexivity. }
      assert (Ht2 : collect_step k s (is, CStore i (Z.of_nat m)) = Some ({| r_occ := r_occ s; r_end := r_end s; r_idx := <[m := Z.of_nat i]> (r_idx s) |}, (is, CTest)))
        by (destruct is; cbn -[zat]; rewrite Ez, Nat2Z.id; reflexivity).
      rewrite Ht2 in Ht. clear Ht2. injection Ht as <- <-. exists G.
      assert (Hat : forall m is' i' j', <[k := (is, CTest)]> ts !! m = Some (is', CStore i' j') -> m <> k /\ ts !! m = Some (is', CStore i' j')).
      { intros m' is' i' j' H. apply list_lookup_insert_Some in H. destruct H as [(_ & E & _)|(N & H)]; [discriminate|]. split; [congruence|exact H]. }
      split; cbn [r_occ r_end r_idx]; auto.
      + rewrite insert_length. exact Ilen.
      + pose proof (pends_insert ts k _ (is, CTest) Hk) as P. unfold pend in P. cbn [fst snd app] in P. apply Permutation_app_inv_r in P.
        rewrite P. exact Iperm.
      + intros t [->|Hti]%elem_insert i0 Hi0; [|eauto]. exact (Iidx _ Hin i0 Hi0).
      + intros m' is' i' j' [_ H]%Hat. eauto.
      + intros m' i' Em'. destruct (decide (m' = m)) as [->|N].
        * left. rewrite list_lookup_insert by lia. congruence.
        * rewrite list_lookup_insert_ne by congruence. destruct (Islot m' i' Em') as [?|(k0 & is0 & H0)]; [left; assumption|]. right. exists k0, is0.
          rewrite list_lookup_insert_ne; [exact H0|]. intros ->. pose proof (eq_trans (eq_sym H0) Hk) as E. injection E as _ _ E. lia.
      + intros k1 k2 is1 is2 i1 i2 j' [_ H1]%Hat [_ H2]%Hat. eapply Iexcl; eassumption.
      + intros t [->|Hti]%elem_insert; [discriminate|eauto].
    - destruct is; discriminate.
  Qed.

  Lemma cinv_reach c c' : Conc.reach collect_step c c' -> forall G, cinv c.1 c.2 G -> exists G', cinv c'.1 c'.2 G'.
  Proof using Hn Hmax.
    induction 1 as [c|c1 c2 c3 H1 _ IH]; intros G I; [eauto|]. destruct c1 as [s ts], c2 as [s' ts'].
    destruct (cinv_step _ _ _ _ _ I H1) as [G' I']. exact (IH G' I').
  Qed.

  Lemma not_stuck s ts G k t : cinv s ts G -> ts !! k = Some t -> t = ([], CTest) \/ exists r, collect_step k s t = Some r.
  Proof.
    intros I Hk. destruct t as [is pc]. destruct pc as [|i|i j|].
    - destruct is as [|i is]; [left; reflexivity|]. right. cbn. destruct (r_occ s !! i) as [[]|]; eauto.
    - right. cbn. destruct is; eauto.
    - right. cbn. destruct is; destruct (zat (r_idx s) j); eauto.
    - exfalso. apply (ci_def _ _ _ I (is, CUndefined)); [eapply elem_of_list_lookup_2; exact Hk|reflexivity].
  Qed.

  Lemma cinv_end s ts G : cinv s ts G -> collected ts -> collect_result s ≡ₚ Z.of_nat <$> occupied_in occ.
  Proof using Hn Hmax.
    intros I Hc.
    assert (Hp : pends ts = []).
    { clear I. unfold pends. induction ts as [|t ts IH]; [reflexivity|]. cbn. rewrite (Hc t) by constructor. cbn. apply IH.
      intros t0 Ht0. apply Hc. constructor. exact Ht0. }
    rewrite <- (ci_perm _ _ _ I), Hp. cbn. unfold collect_result. rewrite (ci_end _ _ _ I), Nat2Z.id.
    assert (Hlen : (length G <= n)%nat).
    { pose proof (Permutation_length (ci_perm _ _ _ I)) as P. rewrite Hp in P. cbn in P. pose proof occupied_length. lia. }
    match goal with |- ?a ≡ₚ ?b => cut (a = b); [intros ->; reflexivity|] end.
    apply list_eq. intros m. destruct (decide (m < length G)%nat) as [L|L].
    - rewrite lookup_take, list_lookup_fmap by exact L. destruct (lookup_lt_is_Some_2 G m L) as [i Ei]. rewrite Ei. cbn.
      destruct (ci_slot _ _ _ I m i Ei) as [E|(k & is & E)]; [exact E|]. exfalso.
      apply elem_of_list_lookup_2, Hc in E. discriminate.
    - rewrite !lookup_ge_None_2; [reflexivity| |]; [rewrite fmap_length; lia|rewrite take_length; lia].
  Qed.
End collect.

(** every schedule ends: at most three steps per index *)
Definition work (t : collect_thread) : Z :=
  3 * Z.of_nat (length t.1) + match t.2 with CTest => 0 | CTake _ => 2 | CStore _ _ => 1 | CUndefined => 0 end.
Lemma work_nonneg t : 0 <= work t.
Proof. unfold work. destruct t.2; lia. Qed.
Lemma work_step k s t s' t' : collect_step k s t = Some (s', t') -> work t' + 1 <= work t.
Proof.
  destruct t as [is pc]. destruct pc as [|i|i j|]; cbn -[to_int32 zat]; unfold work.
  - destruct is as [|i is]; [discriminate|]. destruct (r_occ s !! i) as [[]|]; intros [= <- <-]; cbn -[Z.mul]; lia.
  - destruct is; intros [= <- <-]; cbn -[Z.mul]; lia.
  - destruct is; destruct (zat (r_idx s) j); intros [= <- <-]; cbn -[Z.mul]; lia.
  - destruct is; discriminate.
Qed.
Lemma work_run sched : forall c c', run collect_step sched c = Some c' -> Z.of_nat (length sched) + sumZ work c'.2 <= sumZ work c.2.
Proof.
  induction sched as [|k sched IH]; intros [s ts] c' H; cbn in H; [injection H as <-; cbn; lia|].
  destruct (ts !! k) as [t|] eqn:Ek; [|discriminate]. destruct (collect_step k s t) as [[s' t']|] eqn:Et; [|discriminate].
  specialize (IH _ _ H). cbn [snd] in *. rewrite (sumZ_insert _ _ _ _ _ Ek) in IH. apply work_step in Et. cbn [length]. lia.
Qed.
Lemma work_start n progs : dealt n progs -> sumZ work (collect_threads progs) = 3 * Z.of_nat n.
Proof.
  intros Hd. apply Permutation_length in Hd. rewrite seq_length in Hd. rewrite <- Hd. clear Hd n.
  induction progs as [|p progs IH]; [reflexivity|]. change (collect_threads (p :: progs)) with ((p, CTest) :: collect_threads progs).
  rewrite sumZ_cons, IH. cbn [concat]. rewrite app_length. unfold work. cbn -[Z.mul]. lia.
Qed.

Section reachable.
  Context {K V : Type} (kf : V -> K) (hash : K -> Z) (keq : K -> K -> bool) (opt : bool) (ord : nat -> list nat).
  Context (Hk : key_equality keq) (Hh : hash_respects keq hash) (Ho : any_order ord).
  Context (bc E : nat) (Hs : sizes_ok bc E) (fuel : nat) (Hf : (2 <= fuel)%nat).

  Lemma occupied_reachable u0 u : reachable kf hash keq opt ord fuel bc E u0 u ->
    length (u_occ u) = (bc + E)%nat /\ length (u_indices u) = (bc + E)%nat /\
    (forall p, p ∈ (Z.of_nat <$> occupied_in (u_occ u)) <-> exists v, u_value u p = Ret v) /\
    exists u' positions, u_range ord u = Ret (u', positions) /\ (Z.of_nat <$> occupied_in (u_occ u)) ≡ₚ positions /\ u_size u = Ret (Z.of_nat (length positions)).
  Proof using All.
    intros (junk & ops & rs & Hops & Hc & Hr).
    destruct (s_range kf hash keq opt ord Hk Hh Ho bc E Hs fuel Hf junk ops Hops u0 u rs Hc Hr) as (u' & idx & sizes & E1 & ND & Hm & Esz & _).
    destruct Hs as (Hb & HE & Hmax). pose proof Hk as (kr & ks & kt).
    destruct (UnorderedProofs.reach kf hash keq opt ord Ho kr ks kt Hh bc E Hb HE Hmax fuel Hf junk ops Hops) as (u0' & u'' & rs' & G & st & F0 & F1 & _ & R & _).
    rewrite Hc in F0. injection F0 as <-. rewrite Hr in F1. injection F1 as <- <-.
    assert (Hp : forall p, p ∈ (Z.of_nat <$> occupied_in (u_occ u)) <-> exists v, u_value u p = Ret v).
    { intros p. rewrite elem_of_list_fmap. unfold occupied_in. split.
      - intros (i & -> & Hi). apply elem_of_list_filter in Hi as [Hi _]. rewrite (ur_occ _ _ _ _ _ _ _ _ _ _ R) in Hi.
        destruct (u_values u !! i) as [[v|]|] eqn:Ev; try discriminate. exists v. apply u_value_nat. exact Ev.
      - intros (v & Hv). unfold u_value, zat in Hv. destruct (0 <=? p) eqn:Ep; [|discriminate].
        destruct (u_values u !! Z.to_nat p) as [[w|]|] eqn:Ev; try discriminate. assert (Eo : u_occ u !! Z.to_nat p = Some true) by (rewrite (ur_occ _ _ _ _ _ _ _ _ _ _ R), Ev; reflexivity).
        exists (Z.to_nat p). split; [lia|]. apply elem_of_list_filter. split; [exact Eo|]. apply elem_of_seq. apply lookup_lt_Some in Eo. lia. }
    split; [exact (ur_lo _ _ _ _ _ _ _ _ _ _ R)|]. split; [exact (ur_li _ _ _ _ _ _ _ _ _ _ R)|]. split; [exact Hp|].
    exists u', idx. split; [exact E1|]. split; [|exact Esz].
    apply NoDup_Permutation; [|exact ND|intros p; rewrite Hp; symmetry; apply Hm].
    apply NoDup_fmap_2; [intros x y; lia|]. apply NoDup_filter. apply NoDup_seq.
  Qed.
End reachable.
