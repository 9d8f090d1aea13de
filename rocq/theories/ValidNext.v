(** valid(), and an intact list of free entries: everything that follows is as on a reachable container *)
From Verif Require Import Base Conc SlotModel Lifetime VectorModel VectorProofs UnorderedModel UnorderedSpec HashProofs UnorderedProofs CollectSpec LoopModel LoopSpec LoopProofs ValidSpec ValidProofs.

Lemma no_true (l : list bool) : bcount l = 0 -> l = replicate (length l) false.
Proof. induction l as [|[] l IH]; intros H; [reflexivity| |].
  - unfold bcount in H. rewrite filter_cons_True in H by reflexivity. cbn [length] in H. lia.
  - cbn. f_equal. apply IH. exact H.
Qed.
Lemma bind_ext_in {A B} (f g : A -> list B) l : (forall x, x ∈ l -> f x = g x) -> l ≫= f = l ≫= g.
Proof. induction l as [|x l IH]; intros H; [reflexivity|]. cbn. rewrite (H x) by left. f_equal. apply IH. intros y Hy. apply H. right. exact Hy. Qed.
Lemma entries_cons off p l : entries off p l -> exists m, l = p :: m.
Proof. destruct 1; eauto. Qed.
Lemma entries_linked off p l : entries off p l -> linked off p (tail l).
Proof.
  induction 1 as [p E|p o q l E N Q H IH]; [exact E|]. destruct (entries_cons _ _ _ H) as [m ->]. cbn [tail linked] in *. split; [lia|]. split; [rewrite E; f_equal; lia|exact IH].
Qed.
Lemma entries_occ off (occ : list bool) (bc : nat) p l : (forall p o, (p < bc)%nat \/ occ !! p = Some true -> off !! p = Some o -> o <> 0 -> occ !! Z.to_nat (Z.of_nat p + o) = Some true) ->
  entries off p l -> (p < bc)%nat \/ occ !! p = Some true -> forall q, q ∈ tail l -> occ !! q = Some true.
Proof.
  intros H. induction 1 as [p E|p o q l E N Q He IH]; intros Hp x Hx; [inversion Hx|]. cbn [tail] in Hx. destruct (entries_cons _ _ _ He) as [m ->]. cbn [tail] in IH.
  pose proof (H p o Hp E N) as Hq. rewrite <- Q, Nat2Z.id in Hq. apply elem_of_cons in Hx as [->|Hx]; [exact Hq|]. apply IH; auto.
Qed.

Definition with_count {V} (u : utab V) (c : Z) : utab V := {| u_bc := u_bc u; u_values := u_values u; u_off := u_off u;
    u_occ := u_occ u; u_locks := u_locks u; u_count := c; u_excess := u_excess u; u_indices := u_indices u; u_ev := u_ev u |}.
Lemma with_count_same {V} (u : utab V) c : u_count u = c -> with_count u c = u.
Proof. intros <-. destruct u. reflexivity. Qed.

Section next.
  Context {K V : Type} (kf : V -> K) (hash : K -> Z) (keq : K -> K -> bool) (opt : bool) (ord : nat -> list nat).
  Context (Hk : key_equality keq) (Hh : hash_respects keq hash) (Ho : any_order ord).
  Context (u : utab V) (Hu : arrays_ok u) (Hv : u_valid kf hash keq ord u = Ret true) (st : list nat) (Hf : free_ok opt u st).
  Let bc := Z.to_nat (u_bc u).
  Let E := (length (u_occ u) - bc)%nat.
  Context (HE : (0 < E)%nat).
  Notation n := (length (u_occ u)).
  Let Hbc : (0 < bc)%nat. Proof using Hu. unfold bc. destruct Hu. lia. Qed.
  Let Hn : n = (bc + E)%nat. Proof using Hu. unfold E, bc, total_count in *. destruct Hu as (H & _). unfold total_count in H. lia. Qed.
  Let Hm : Z.of_nat (bc + E) <= INT_MAX. Proof using Hu Hn. rewrite <- Hn. apply Hu. Qed.
  Let kr : forall a, keq a a = true. Proof using Hk. apply Hk. Qed.
  Let ks : forall a b, keq a b = true -> keq b a = true. Proof using Hk. apply Hk. Qed.
  Let kt : forall a b c, keq a b = true -> keq b c = true -> keq a c = true. Proof using Hk. apply Hk. Qed.

  Definition val (p : nat) : option V := mjoin (u_values u !! p).
  Definition vals (l : list nat) : list V := omap val l.
  Definition bucket_of (l : list nat) : option V * list (nat * V) :=
    (match l with [] => None | p :: _ => val p end, omap (fun p => pair p <$> val p) (tail l)).

  Lemma val_holds p v : val p = Some v <-> holds_at u p v.
  Proof using All.
    unfold val, holds_at, u_value, zat. rewrite (proj2 (Z.leb_le _ _)) by lia. rewrite Nat2Z.id. split.
    - intros H. destruct (u_values u !! p) as [[w|]|] eqn:Ev; try discriminate. cbn in H. injection H as ->. split; [|reflexivity].
      pose proof Ev as Lp. apply lookup_lt_Some in Lp. rewrite (fo_values _ _ _ Hf) in Lp. destruct (lookup_lt_is_Some_2 _ _ Lp) as [[] Eb]; [exact Eb|]. rewrite (fo_empty _ _ _ Hf _ Eb) in Ev. discriminate.
    - intros [_ H]. destruct (u_values u !! p) as [[w|]|]; try discriminate. cbn in *. injection H as ->. reflexivity.
  Qed.
  Lemma val_occ p : u_occ u !! p = Some true -> exists v, val p = Some v.
  Proof using All. intros H. destruct (occupied_holds kf hash keq ord Hk Hh Ho u Hu Hv p H) as (v & Hp & _). exists v. apply val_holds. exact Hp. Qed.
  Lemma pairs_snd l : (omap (fun p => pair p <$> val p) l).*2 = vals l.
  Proof. unfold vals. induction l as [|p l IH]; [reflexivity|]. cbn. destruct (val p); cbn; [f_equal|]; exact IH. Qed.
  Lemma pairs_fst l : (forall p, p ∈ l -> u_occ u !! p = Some true) -> (omap (fun p => pair p <$> val p) l).*1 = l.
  Proof using All.
    induction l as [|p l IH]; intros H; [reflexivity|]. cbn. destruct (val_occ p) as [v ->]; [apply H; left|]. cbn. f_equal. apply IH. intros q Hq. apply H. right. exact Hq.
  Qed.
  Lemma bucket_vals p l : gvals (bucket_of (p :: l)) = vals (p :: l).
  Proof. unfold gvals, bucket_of. cbn [fst snd tail]. rewrite pairs_snd. unfold vals. cbn. destruct (val p); reflexivity. Qed.
  Lemma vals_in l v : v ∈ vals l <-> exists p, p ∈ l /\ holds_at u p v.
  Proof using All. unfold vals. rewrite elem_of_list_omap. split; intros (p & H1 & H2); exists p; (split; [exact H1|]); apply val_holds; exact H2. Qed.
  Lemma vals_kd l : NoDup l -> kd kf keq (vals l).
  Proof using All.
    induction 1 as [|p l Hp ND IH]; [exact I|]. unfold vals. cbn. destruct (val p) as [v|] eqn:Ev; [|exact IH]. split; [|exact IH].
    intros w Hw. apply vals_in in Hw as (q & Hq & Hw). apply val_holds in Ev. destruct (keq (kf v) (kf w)) eqn:Ek; [|reflexivity]. exfalso. apply Hp.
    rewrite (keys_differ kf hash keq ord Hk Hh Ho u Hu Hv p q v w Ev Hw Ek). exact Hq.
  Qed.

  Lemma found_in k m : forall fuel p q, entries (u_off u) p (p :: m) -> find_loop kf keq fuel u k (Z.of_nat p) = Ret (Z.of_nat q) -> (q < n)%nat -> q ∈ m.
  Proof using All.
    induction m as [|r m IH]; intros fuel p q He H Hq; (destruct fuel as [|fuel]; [discriminate|]); cbn [find_loop] in H; unfold zat in H at 1; rewrite (proj2 (Z.leb_le _ _)), Nat2Z.id in H by lia.
    - inversion He as [p' E1|p' o q' l E1 N Q He']; subst; [|inversion He']. rewrite E1 in H. cbn in H. unfold total_count in H. injection H as H. lia.
    - inversion He as [p' E1|p' o q' l E1 N Q He']; subst. rewrite E1 in H. cbn [obind] in H. rewrite (proj2 (Z.eqb_neq _ _)) in H by exact N.
      destruct (entries_cons _ _ _ He') as [m' Em]. injection Em as <- <-. rewrite <- Q in H.
      destruct (entry_matches kf keq u (Z.of_nat r) k) as [[]| |]; try discriminate; cbn [obind] in H.
      + injection H as H. apply elem_of_cons. left. lia.
      + right. eapply IH; eassumption.
  Qed.

  Lemma rep_of_valid : exists G, urep kf hash keq opt bc E (replicate (bc + E) false) u G st /\ (forall v, v ∈ G ≫= gvals <-> exists p, holds_at u p v).
  Proof using All.
    destruct (separate kf hash keq ord Hk Hh Ho u Hu Hv) as (lists & LL & He & ND). fold bc in LL.
    pose proof Hu as Hu'. destruct Hu as (Hb & _ & L). unfold total_count in Hb.
    assert (Hcons : forall b l, lists !! b = Some l -> exists m, l = b :: m) by (intros b l Hl; eapply entries_cons; apply He; exact Hl).
    assert (Hlt : forall b l, lists !! b = Some l -> (b < bc)%nat) by (intros b l Hl; rewrite <- LL; apply lookup_lt_Some in Hl; exact Hl).
    assert (Hocc : forall b l, lists !! b = Some l -> forall q, q ∈ tail l -> u_occ u !! q = Some true).
    { intros b l Hl. eapply (entries_occ (u_off u) _ bc b); [apply (fo_links _ _ _ Hf)|apply He; exact Hl|left; apply (Hlt _ _ Hl)]. }
    (** where a stored value is *)
    assert (Hwhere : forall p v, holds_at u p v -> exists l, lists !! bkt hash bc (kf v) = Some l /\ p ∈ l).
    { intros p v Hp. pose proof (stored_found kf hash keq ord Hk Hh Ho u Hu Hv (kf v) p v Hp (kr _)) as F. unfold u_find, u_bucket in F.
      destruct (bkt_spec kf hash keq opt ord Ho kr ks kt Hh bc E Hbc HE Hm (kf v)) as [Eb Hlb]. replace (u_bc u) with (Z.of_nat bc) in F by (unfold bc; lia). rewrite Eb in F. cbn [obind] in F.
      rewrite (proj2 (Z.leb_le _ _)), (proj2 (Z.ltb_lt _ _)) in F by lia. cbn [andb obind] in F.
      destruct (lookup_lt_is_Some_2 lists (bkt hash bc (kf v)) ltac:(lia)) as [l El]. exists l. split; [exact El|]. destruct (Hcons _ _ El) as [m ->].
      destruct (entry_matches _ _ _ _ _) as [[]| |]; try discriminate; cbn [obind] in F.
      - injection F as F. apply elem_of_cons. left. lia.
      - right. eapply found_in; [apply He; exact El|exact F|]. destruct Hp as [Hp _]. apply lookup_lt_Some in Hp. exact Hp. }
    assert (Hin : forall b l p, lists !! b = Some l -> p ∈ l -> p ∈ concat lists).
    { intros b l p Hl Hp. apply elem_of_list_In, in_concat. exists l. rewrite <- !elem_of_list_In. split; [apply elem_of_list_lookup; eauto|exact Hp]. }
    assert (Hone : forall b l p, lists !! b = Some l -> p ∈ l -> forall b' l', lists !! b' = Some l' -> p ∈ l' -> b = b').
    { intros b l p Hl Hp b' l' Hl' Hp'. destruct (nodup_own lists ND b l Hl) as [_ H]. eapply H; eassumption. }
    set (G := bucket_of <$> lists).
    assert (HG : forall b g, G !! b = Some g -> exists m, lists !! b = Some (b :: m) /\ g = bucket_of (b :: m)).
    { intros b g Hg. unfold G in Hg. rewrite list_lookup_fmap in Hg. destruct (lists !! b) as [l|] eqn:El; [|discriminate]. destruct (Hcons _ _ El) as [m ->]. exists m. injection Hg as <-. auto. }
    assert (Hpos : forall b m, lists !! b = Some (b :: m) -> gpos (bucket_of (b :: m)) = m) by (intros b m Hl; apply pairs_fst; apply (Hocc _ _ Hl)).
    assert (Hcontent : forall v, v ∈ G ≫= gvals <-> exists p, holds_at u p v).
    { intros v. rewrite elem_of_list_bind. split.
      - intros (g & Hg & Hgi). apply elem_of_list_lookup in Hgi as [b Hgi]. destruct (HG _ _ Hgi) as (m & _ & ->). rewrite bucket_vals in Hg. apply vals_in in Hg as (p & _ & Hp). eauto.
      - intros (p & Hp). destruct (Hwhere _ _ Hp) as (l & Hl & Hpl). exists (bucket_of l). destruct (Hcons _ _ Hl) as [m ->]. split.
        + rewrite bucket_vals. apply vals_in. eauto.
        + apply elem_of_list_lookup. eexists. unfold G. rewrite list_lookup_fmap, Hl. reflexivity. }
    assert (Hperm : (G ≫= gpos) ++ st ≡ₚ seq bc E).
    { assert (Hbind : G ≫= gpos = lists ≫= tail).
      { unfold G. rewrite list_fmap_bind. apply bind_ext_in. intros l Hl. apply elem_of_list_lookup in Hl as [b Hl]. destruct (Hcons _ _ Hl) as [m ->]. cbn [compose]. apply Hpos. exact Hl. }
      assert (Hmem : forall p, p ∈ lists ≫= tail <-> exists b m, lists !! b = Some (b :: m) /\ p ∈ m).
      { intros p. rewrite elem_of_list_bind. split.
        - intros (l & Hp & Hl). apply elem_of_list_lookup in Hl as [b Hl]. destruct (Hcons _ _ Hl) as [m ->]. exists b, m. auto.
        - intros (b & m & Hl & Hp). exists (b :: m). split; [exact Hp|]. apply elem_of_list_lookup. eauto. }
      rewrite Hbind. apply NoDup_Permutation; [|apply NoDup_seq|].
      - apply NoDup_app. split; [|split; [|apply (fo_once _ _ _ Hf)]].
        + clear - ND. induction lists as [|l lists IH]; [constructor|]. cbn in ND. apply NoDup_app in ND as (N1 & N2 & N3). cbn. apply NoDup_app. split; [destruct l; [constructor|]; apply NoDup_cons in N1; apply N1|].
          split; [|apply IH; exact N3]. intros x Hx Hx2. apply (N2 x); [destruct l; [inversion Hx|right; exact Hx]|].
          apply elem_of_list_bind in Hx2 as (l' & Hx2 & Hl'). apply elem_of_list_In, in_concat. exists l'. rewrite <- !elem_of_list_In. split; [exact Hl'|]. destruct l'; [inversion Hx2|right; exact Hx2].
        + intros p Hp Hst. apply Hmem in Hp as (b & m & Hl & Hp). pose proof (Hocc _ _ Hl p Hp) as H1. apply (fo_free _ _ _ Hf) in Hst as [_ H2]. congruence.
      - intros p. rewrite elem_of_app, elem_of_seq. split.
        + intros [Hp|Hp].
          * apply Hmem in Hp as (b & m & Hl & Hp). pose proof (Hocc _ _ Hl p Hp) as H1. apply lookup_lt_Some in H1. destruct (Nat.lt_ge_cases p bc) as [Hc|Hc]; [|lia]. exfalso.
            destruct (lookup_lt_is_Some_2 lists p ltac:(lia)) as [l' El']. destruct (Hcons _ _ El') as [m' ->].
            assert (b = p) by (eapply Hone; [exact Hl|right; exact Hp|exact El'|left]). subst b. destruct (nodup_own lists ND p _ Hl) as [N _]. apply NoDup_cons in N as [N _]. contradiction.
          * apply (fo_free _ _ _ Hf) in Hp as [H1 H2]. fold bc in H1. apply lookup_lt_Some in H2. lia.
        + intros Hp. destruct (lookup_lt_is_Some_2 (u_occ u) p ltac:(lia)) as [[] Eb].
          * left. destruct (val_occ p Eb) as [v Ev]. apply val_holds in Ev. destruct (Hwhere _ _ Ev) as (l & Hl & Hpl). destruct (Hcons _ _ Hl) as [m ->]. apply Hmem. exists (bkt hash bc (kf v)), m. split; [exact Hl|].
            apply elem_of_cons in Hpl as [->|Hpl]; [|exact Hpl]. apply Hlt in Hl. lia.
          * right. apply (fo_free _ _ _ Hf). fold bc. split; [lia|exact Eb]. }
    destruct (parts kf hash keq ord Hk Hh Ho u Hu Hv) as (_ & _ & _ & _ & _ & Hlocks & _). apply Z.eqb_eq in Hlocks.
    assert (Hval : forall p v, val p = Some v -> u_values u !! p = Some (Some v)).
    { intros p v H. unfold val in H. destruct (u_values u !! p) as [[w|]|]; cbn in H; congruence. }
    assert (R : urep kf hash keq opt bc E (replicate (bc + E) false) (with_count u (Z.of_nat (length (G ≫= gvals)))) G st).
    { split; cbn.
      - unfold bc. lia.
      - rewrite (fo_values _ _ _ Hf). exact Hn.
      - rewrite L. exact Hn.
      - exact Hn.
      - rewrite (fo_indices _ _ _ Hf). exact Hn.
      - rewrite (no_true _ Hlocks), (fo_locks _ _ _ Hf), <- Hn. reflexivity.
      - apply replicate_length.
      - unfold G. rewrite fmap_length. exact LL.
      - exact Hperm.
      - intros b g Hg. destruct (HG _ _ Hg) as (m & Hl & ->). cbn. unfold val. destruct (lookup_lt_is_Some_2 (u_values u) b) as [o Eo]; [rewrite (fo_values _ _ _ Hf); apply Hlt in Hl; lia|]. rewrite Eo. reflexivity.
      - intros b g Hg. destruct (HG _ _ Hg) as (m & Hl & ->). rewrite (Hpos _ _ Hl). apply (entries_linked _ _ _ (He _ _ Hl)).
      - intros b g p v Hg Hp. destruct (HG _ _ Hg) as (m & Hl & ->). cbn in Hp. apply elem_of_list_omap in Hp as (q & _ & Hq). destruct (val q) as [w|] eqn:Ew; [|discriminate]. injection Hq as <- <-. apply Hval. exact Ew.
      - intros p Hp. apply (fo_free _ _ _ Hf) in Hp as [_ Hp]. apply (fo_empty _ _ _ Hf). exact Hp.
      - intros p. destruct (u_occ u !! p) as [[]|] eqn:Eb.
        + destruct (val_occ p Eb) as [v Ev]. rewrite (Hval _ _ Ev). reflexivity.
        + rewrite (fo_empty _ _ _ Hf _ Eb). reflexivity.
        + apply lookup_ge_None in Eb. rewrite <- (fo_values _ _ _ Hf) in Eb. apply lookup_ge_None in Eb. rewrite Eb. reflexivity.
      - intros p o Hp. pose proof (inside kf hash keq ord Hk Hh Ho u Hu Hv p o Hp) as H. rewrite L, Hn in H. exact H.
      - reflexivity.
      - pose proof (fo_capacity _ _ _ Hf) as [C1 C2]. fold bc in C1, C2. fold E in C1, C2.
        assert (Lst : (length st <= E)%nat).
        { assert (P : length ((G ≫= gpos) ++ st) = E) by (rewrite Hperm; apply seq_length). rewrite app_length in P. lia. }
        rewrite (fo_excess _ _ _ Hf). fold bc. fold E. split; cbn.
        + rewrite fmap_length. reflexivity.
        + rewrite fmap_length. exact Lst.
        + exact C1.
        + exact C2.
        + reflexivity.
        + intros i Hi. rewrite list_lookup_fmap. apply (fo_stack _ _ _ Hf). exact Hi.
        + intros i Hi. rewrite fmap_length. apply (fo_stack _ _ _ Hf). exact Hi.
        + discriminate.
      - intros b g v Hg Hvg. destruct (HG _ _ Hg) as (m & Hl & ->). rewrite bucket_vals in Hvg. apply vals_in in Hvg as (p & Hp & Hpv). destruct (Hwhere _ _ Hpv) as (l' & Hl' & Hp'). symmetry. eapply Hone; eassumption.
      - intros b g Hg. destruct (HG _ _ Hg) as (m & Hl & ->). rewrite bucket_vals. apply (kd_iff kf hash keq opt ord Ho kr ks kt Hh bc E Hbc HE Hm). apply vals_kd. apply (nodup_own lists ND b _ Hl).
      - apply (fo_life _ _ _ Hf). }
    assert (Hc : u_count u = Z.of_nat (length (G ≫= gvals))).
    { pose proof (valid_rep kf hash keq opt ord Ho kr ks kt Hh bc E Hbc HE Hm _ _ _ R) as V1.
      assert (Hu1 : arrays_ok (with_count u (Z.of_nat (length (G ≫= gvals))))) by exact Hu'.
      pose proof (size_counts kf hash keq ord Hk Hh Ho _ Hu1 V1) as S1.
      destruct (size_rep kf hash keq opt ord Ho kr ks kt Hh bc E Hbc HE Hm _ _ _ _ R) as [S2 _].
      pose proof (eq_trans (eq_sym S1) S2) as S3. cbn in S3. injection S3 as S3.
      pose proof (size_counts kf hash keq ord Hk Hh Ho u Hu Hv) as S4. unfold u_size in S4. destruct ((0 <=? u_count u) && (u_count u <=? total_count u)); [|discriminate]. injection S4 as S4. congruence. }
    exists G. split; [|exact Hcontent]. rewrite with_count_same in R by exact Hc. exact R.
  Qed.

  Lemma runs_from_valid (fuel : nat) (ops : list (uop K V)) : (2 <= fuel)%nat -> Forall (uop_ok (u_bc u)) ops ->
    exists u' rs M0 M (bucket : K -> Z), (forall v, v ∈ M0 <-> exists p, holds_at u p v) /\ keys_distinct kf keq M0 /\ (forall k, u_bucket hash u k = Ret (bucket k)) /\
      u_run kf hash keq opt ord fuel u ops = Ret (u', rs) /\ spec_urun kf keq bucket (total_count u) M0 ops rs M /\
      keys_distinct kf keq M /\ u_valid kf hash keq ord u' = Ret true /\ (forall v, v ∈ M <-> exists p, holds_at u' p v).
  Proof using All.
    intros Hfu Hops. destruct rep_of_valid as (G & R & HC).
    assert (Ebc : Z.of_nat bc = u_bc u) by (destruct Hu; unfold bc; lia). rewrite <- Ebc in Hops.
    destruct (run_sim kf hash keq opt ord Ho kr ks kt Hh bc E Hbc HE Hm fuel ops Hfu Hops u G st R) as (u' & rs & rs' & G' & st' & E1 & R' & _ & _ & E2).
    exists u', rs, (G ≫= gvals), (G' ≫= gvals), (fun k => Z.of_nat (bkt hash bc k)). split; [exact HC|].
    split; [eapply (content_kd kf hash keq opt ord Ho kr ks kt Hh bc E Hbc HE Hm); exact R|].
    split; [intros k; eapply (bucket_rep kf hash keq opt ord Ho kr ks kt Hh bc E Hbc HE Hm); exact R|]. split; [exact E1|].
    split; [unfold total_count; rewrite Hn; exact E2|].
    split; [eapply (content_kd kf hash keq opt ord Ho kr ks kt Hh bc E Hbc HE Hm); exact R'|].
    split; [eapply (valid_rep kf hash keq opt ord Ho kr ks kt Hh bc E Hbc HE Hm); exact R'|].
    intros v. split.
    - intros Hvg. apply elem_of_list_bind in Hvg as (g & Hvg & Hg). apply elem_of_list_lookup in Hg as [b Hg]. unfold gvals in Hvg.
      assert (Q : exists p, u_values u' !! p = Some (Some v)).
      { apply elem_of_app in Hvg as [Hvg|Hvg].
        + exists b. rewrite (ur_head _ _ _ _ _ _ _ _ _ _ R' _ _ Hg). destruct g.1; cbn [olist] in Hvg; [|inversion Hvg]. apply elem_of_list_singleton in Hvg as ->. reflexivity.
        + apply elem_of_list_fmap in Hvg as ([p w] & -> & Hw). exists p. apply (ur_chain _ _ _ _ _ _ _ _ _ _ R' _ _ _ _ Hg Hw). }
      destruct Q as [p Q]. exists p. unfold holds_at, u_value. rewrite (ur_occ _ _ _ _ _ _ _ _ _ _ R'), Q, (zat_nat _ _ _ Q). auto.
    - intros (p & _ & Hp). unfold u_value, zat in Hp. rewrite (proj2 (Z.leb_le _ _)), Nat2Z.id in Hp by lia. destruct (u_values u' !! p) as [[w|]|] eqn:Ev; try discriminate. injection Hp as ->.
      destruct (stored_in_bucket kf hash keq opt ord Ho kr ks kt Hh bc E Hbc HE Hm _ _ _ _ _ _ R' Ev) as (g & Hg & Hin). apply elem_of_list_bind. exists g. split; [|apply elem_of_list_lookup; eauto].
      unfold gvals. apply elem_of_app. destruct Hin as [[_ ->] |Hin]; [left; left|right; apply elem_of_list_fmap; exists (p, v); auto].
  Qed.
End next.

Lemma linked_next off P : forall p, linked off p P -> forall q o, q ∈ p :: P -> off !! q = Some o -> o <> 0 -> Z.to_nat (Z.of_nat q + o) ∈ P.
Proof.
  induction P as [|r P IH]; intros p HL q o Hq Eo N; cbn [linked] in HL.
  - apply elem_of_list_singleton in Hq as ->. rewrite HL in Eo. congruence.
  - destruct HL as (H1 & H2 & H3). apply elem_of_cons in Hq as [->|Hq].
    + rewrite H2 in Eo. injection Eo as <-. apply elem_of_cons. left. lia.
    + right. eapply IH; eassumption.
Qed.
(** every container in use has an intact list of free entries *)
Section reached.
  Context {K V : Type} (kf : V -> K) (hash : K -> Z) (keq : K -> K -> bool) (opt : bool) (ord : nat -> list nat).
  Context (Hk : key_equality keq) (Hh : hash_respects keq hash) (Ho : any_order ord).
  Context (bc E : nat) (Hs : sizes_ok bc E).
  Let Hbc : (0 < bc)%nat. Proof using Hs. apply Hs. Qed.
  Let HE : (0 < E)%nat. Proof using Hs. apply Hs. Qed.
  Let Hmax : Z.of_nat (bc + E) <= INT_MAX. Proof using Hs. apply Hs. Qed.
  Let kr : forall a, keq a a = true. Proof using Hk. apply Hk. Qed.
  Let ks : forall a b, keq a b = true -> keq b a = true. Proof using Hk. apply Hk. Qed.
  Let kt : forall a b c, keq a b = true -> keq b c = true -> keq a c = true. Proof using Hk. apply Hk. Qed.
  Lemma free_of_rep (u : utab V) G st : urep kf hash keq opt bc E (replicate (bc + E) false) u G st -> arrays_ok u /\ free_ok opt u st /\ (0 < E)%nat /\ (0 < length (u_occ u) - Z.to_nat (u_bc u))%nat.
  Proof using All.
    intros R. pose proof (ur_bc _ _ _ _ _ _ _ _ _ _ R) as Eb. pose proof (ur_lo _ _ _ _ _ _ _ _ _ _ R) as El. pose proof (ur_ex _ _ _ _ _ _ _ _ _ _ R) as X.
    assert (Ebn : Z.to_nat (u_bc u) = bc) by lia. assert (EE : (length (u_occ u) - Z.to_nat (u_bc u))%nat = E) by lia.
    split; [unfold arrays_ok, total_count; rewrite (ur_lf _ _ _ _ _ _ _ _ _ _ R), El; lia|]. split; [|lia].
    assert (Hst : forall p, p ∈ st -> (bc <= p < bc + E)%nat /\ u_occ u !! p = Some false).
    { intros p Hp. split; [eapply (free_range kf hash keq opt ord Ho kr ks kt Hh bc E Hbc HE Hmax); eassumption|]. rewrite (ur_occ _ _ _ _ _ _ _ _ _ _ R), (ur_free _ _ _ _ _ _ _ _ _ _ R p Hp). reflexivity. }
    assert (Hcell : forall p b, u_occ u !! p = Some b -> exists o, u_values u !! p = Some o /\ b = is_some o).
    { intros p b Hp. rewrite (ur_occ _ _ _ _ _ _ _ _ _ _ R) in Hp. destruct (u_values u !! p) as [o|]; [|discriminate]. injection Hp as <-. eauto. }
    assert (Hch : forall b g q, G !! b = Some g -> q ∈ gpos g -> u_occ u !! q = Some true).
    { intros b g q Hg Hq. apply elem_of_list_fmap in Hq as ([q' v] & -> & Hq). cbn [fst]. rewrite (ur_occ _ _ _ _ _ _ _ _ _ _ R), (ur_chain _ _ _ _ _ _ _ _ _ _ R _ _ _ _ Hg Hq). reflexivity. }
    assert (Hsplit : forall p, (bc <= p < bc + E)%nat -> (exists b g, G !! b = Some g /\ p ∈ gpos g) \/ p ∈ st).
    { intros p Hp. assert (M : p ∈ (G ≫= gpos) ++ st) by (rewrite (ur_perm _ _ _ _ _ _ _ _ _ _ R); apply elem_of_seq; lia). apply elem_of_app in M as [M|M]; [left|right; exact M].
      apply elem_of_list_bind in M as (g & M & Hg). apply elem_of_list_lookup in Hg as [b Hg]. eauto. }
    split.
    - rewrite (ur_lv _ _ _ _ _ _ _ _ _ _ R). lia.
    - rewrite (ur_li _ _ _ _ _ _ _ _ _ _ R). lia.
    - rewrite (ur_lk _ _ _ _ _ _ _ _ _ _ R), replicate_length. lia.
    - intros p Hp. destruct (Hcell _ _ Hp) as ([v|] & Ev & H); [discriminate|exact Ev].
    - pose proof (pos_nodup kf hash keq opt ord Ho kr ks kt Hh bc E Hbc HE Hmax _ _ _ _ R) as ND. apply NoDup_app in ND as (_ & _ & ND). exact ND.
    - intros p. rewrite Ebn. split; [intros Hp; destruct (Hst p Hp) as [H1 H2]; split; [lia|exact H2]|]. intros [H1 H2]. pose proof H2 as H3. apply lookup_lt_Some in H3.
      destruct (Hsplit p ltac:(lia)) as [(b & g & Hg & Hp)|Hp]; [|exact Hp]. rewrite (Hch _ _ _ Hg Hp) in H2. discriminate.
    - intros p o Hp Eo N. rewrite Ebn in Hp.
      assert (Q : exists b g, G !! b = Some g /\ p ∈ b :: gpos g).
      { destruct (Nat.lt_ge_cases p bc) as [Hc|Hc].
        - destruct (lookup_lt_is_Some_2 G p) as [g Hg]; [rewrite (ur_lg _ _ _ _ _ _ _ _ _ _ R); exact Hc|]. exists p, g. split; [exact Hg|left].
        - destruct Hp as [Hp|Hp]; [lia|]. pose proof Hp as Hp2. apply lookup_lt_Some in Hp2. destruct (Hsplit p ltac:(lia)) as [(b & g & Hg & Hq)|Hq]; [exists b, g; split; [exact Hg|right; exact Hq]|]. destruct (Hst _ Hq) as [_ H]. congruence. }
      destruct Q as (b & g & Hg & Hq). eapply Hch; [exact Hg|]. eapply linked_next; [apply (ur_link _ _ _ _ _ _ _ _ _ _ R _ _ Hg)|exact Hq|exact Eo|exact N].
    - rewrite EE. destruct X as [X1 X2 X3 X4 X5 X6 X7 X8]. destruct (u_excess u) as [a b c d e]. cbn in *. rewrite fmap_length in X1. subst. reflexivity.
    - rewrite EE. split; [apply (r_ld _ _ _ _ X)|apply (r_lo _ _ _ _ X)].
    - intros i Hi. rewrite EE in Hi. rewrite (r_data _ _ _ _ X i Hi), (r_occ _ _ _ _ X i Hi), fmap_length, list_lookup_fmap. auto.
    - apply (ur_life _ _ _ _ _ _ _ _ _ _ R).
  Qed.
  Lemma free_reached (fuel : nat) junk (ops : list (uop K V)) u0 u rs : (2 <= fuel)%nat -> Forall (uop_ok (Z.of_nat bc)) ops ->
    unordered_create ord junk (Z.of_nat bc) (Z.of_nat E) = Ret u0 -> u_run kf hash keq opt ord fuel u0 ops = Ret (u, rs) ->
    arrays_ok u /\ u_valid kf hash keq ord u = Ret true /\ (Z.to_nat (u_bc u) < length (u_occ u))%nat /\ exists st, free_ok opt u st.
  Proof using All.
    intros Hf Hops E0 E1. destruct (UnorderedProofs.reach kf hash keq opt ord Ho kr ks kt Hh bc E Hbc HE Hmax fuel Hf junk ops Hops) as (u0' & u' & rs' & G & st & F0 & F1 & _ & R & _).
    rewrite E0 in F0. injection F0 as <-. rewrite E1 in F1. injection F1 as <- <-. destruct (free_of_rep u G st R) as (H1 & H2 & H3 & H4).
    split; [exact H1|]. split; [eapply (valid_rep kf hash keq opt ord Ho kr ks kt Hh bc E Hbc HE Hmax); exact R|]. split; [lia|eauto].
  Qed.
End reached.
