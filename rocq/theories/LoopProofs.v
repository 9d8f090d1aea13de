From Verif Require Import Base Conc SlotModel VectorModel UnorderedModel UnorderedSpec UnorderedProofs UnorderedSeqProofs CollectModel LoopModel CollectSpec LoopSpec.

Section loop.
  Context (off : list Z) (n bc : nat) (Hn : length off = n) (Hin : links_inside off) (Hbc : (bc <= n)%nat).

  (** the entries visited from b on, the last one being p *)
  Inductive path (b : nat) : list nat -> nat -> Prop :=
  | PStart : path b [b] b
  | PNext l p o q : path b l p -> off !! p = Some o -> o <> 0 -> Z.of_nat q = Z.of_nat p + o -> path b (l ++ [q]) q.
  Lemma path_entries b l p : path b l p -> forall m, entries off p (p :: m) -> entries off b (l ++ m).
  Proof.
    induction 1 as [|l p o q H IH E N Q]; intros m Hm; [exact Hm|]. rewrite <- app_assoc. apply IH. econstructor; eassumption.
  Qed.
  Lemma path_whole b l p : path b l p -> off !! p = Some 0 -> entries off b l.
  Proof. intros H E. rewrite <- (app_nil_r l). eapply path_entries; [exact H|]. constructor. exact E. Qed.
  Lemma path_prefix b l p : path b l p -> forall w, entries off b w -> exists m, w = l ++ m /\ entries off p (p :: m).
  Proof.
    induction 1 as [|l p o q H IH E N Q]; intros w Hw.
    - assert (exists m, w = b :: m) as [m ->] by (inversion Hw; eauto). exists m. auto.
    - destruct (IH w Hw) as (m & -> & Hm). inversion Hm as [p' E' |p' o' q' l' E' N' Q' Hl]; subst; [congruence|].
      rewrite E in E'. injection E' as <-. assert (q' = q) by lia. subst q'.
      assert (exists m', m = q :: m') as [m' ->] by (inversion Hl; eauto). exists m'. rewrite <- app_assoc. split; [reflexivity|exact Hl].
  Qed.
  Lemma path_last b l p : path b l p -> p ∈ l.
  Proof. induction 1; [constructor|]. apply elem_of_app. right. constructor. Qed.

  Notation cnt := (count_occ Nat.eq_dec).
  Definition cur (pc : visit_pc) : list nat := match pc with VOff i _ | VAdd i _ | VCheck i _ => [i] | _ => [] end.
  Definition pend (t : visit_thread) : list nat := cur t.2 ++ t.1.

  Definition twice (G : list (list nat)) : Prop := exists p, (2 <= cnt (concat G) p)%nat.
  Definition pc_ok (G : list (list nat)) (pc : visit_pc) : Prop :=
    match pc with
    | VHead => True
    | VOff i p | VCheck i p => exists g, G !! i = Some g /\ path i g p
    | VAdd i q => exists g p o, G !! i = Some g /\ path i g p /\ off !! p = Some o /\ o <> 0 /\ Z.of_nat q = Z.of_nat p + o
    | VUndefined => False
    end.

  Record linv (flags : list Z) (ts : list visit_thread) (G : list (list nat)) : Prop := {
    li_len : length flags = n;
    li_flags : forall p m, flags !! p = Some m -> m = Z.of_nat (cnt (concat G) p);
    li_G : length G = bc;
    li_path : forall b g, G !! b = Some g -> g = [] \/ exists p, path b g p;
    li_in : forall k t b, ts !! k = Some t -> b ∈ pend t -> (b < bc)%nat;
    li_todo : forall k t b, ts !! k = Some t -> b ∈ t.1 -> G !! b = Some [];
    li_pc : forall k t, ts !! k = Some t -> pc_ok G t.2;
    li_once : forall k t, ts !! k = Some t -> NoDup (pend t);
    li_own : forall k k' t t' b, ts !! k = Some t -> ts !! k' = Some t' -> b ∈ pend t -> b ∈ pend t' -> k = k';
    li_done : forall b, (b < bc)%nat -> (exists k t, ts !! k = Some t /\ b ∈ pend t) \/ (exists g, G !! b = Some g /\ entries off b g) \/ twice G
  }.

  Lemma concat_insert (G : list (list nat)) i g q : G !! i = Some g -> concat (<[i := g ++ [q]]> G) ≡ₚ q :: concat G.
  Proof.
    revert i. induction G as [|a G IH]; intros [|i] H; cbn in H; try discriminate.
    - injection H as ->. cbn. rewrite <- app_assoc. cbn. symmetry. apply Permutation_middle.
    - cbn. rewrite (IH i H). symmetry. apply Permutation_middle.
  Qed.
  Lemma cnt_insert (G : list (list nat)) i g q p : G !! i = Some g -> cnt (concat (<[i := g ++ [q]]> G)) p = (if decide (q = p) then S (cnt (concat G) p) else cnt (concat G) p).
  Proof.
    intros H. rewrite (proj1 (Permutation_count_occ Nat.eq_dec _ _) (concat_insert G i g q H) p). cbn.
    destruct (Nat.eq_dec q p), (decide (q = p)); congruence || reflexivity.
  Qed.
  Lemma twice_insert (G : list (list nat)) i g q : G !! i = Some g -> twice G -> twice (<[i := g ++ [q]]> G).
  Proof. intros H (p & Hp). exists p. rewrite (cnt_insert _ _ _ _ _ H). destruct (decide (q = p)); lia. Qed.

  Lemma path_bound b l p : path b l p -> (b < n)%nat -> (p < n)%nat.
  Proof using Hn Hin Hbc. induction 1 as [|l p o q H IH E N Q]; intros Hb; [exact Hb|]. pose proof (Hin _ _ E). lia. Qed.

  Lemma sublist_elem (l1 l2 : list nat) : sublist l1 l2 -> forall b, b ∈ l1 -> b ∈ l2.
  Proof.
    induction 1 as [|x l1 l2 H IH|x l1 l2 H IH]; intros b Hb; [exact Hb| |].
    - apply elem_of_cons in Hb as [->|Hb]; [constructor|]. constructor. auto.
    - constructor. auto.
  Qed.
  Lemma sublist_distinct (l1 l2 : list nat) : sublist l1 l2 -> NoDup l2 -> NoDup l1.
  Proof.
    induction 1 as [|x l1 l2 H IH|x l1 l2 H IH]; intros ND; [exact ND| |]; apply NoDup_cons in ND as [N1 N2]; [|auto].
    apply NoDup_cons. split; [|auto]. intros Hx. apply N1. eapply sublist_elem; eassumption.
  Qed.

  (** one visit: thread k visits entry q for its index i; [t'] is where it goes *)
  Lemma visit flags ts G k t i q g m t' : linv flags ts G -> ts !! k = Some t -> G !! i = Some g -> path i (g ++ [q]) q -> flags !! q = Some m ->
    pend t' = pend t -> i ∈ pend t -> i ∉ t'.1 -> (forall b, b ∈ t'.1 -> b ∈ t.1) -> (t'.2 = VOff i q \/ t'.2 = VCheck i q) ->
    linv (<[q := m + 1]> flags) (<[k := t']> ts) (<[i := g ++ [q]]> G).
  Proof using Hn Hin Hbc.
    intros I Hk Hg Hp Hm Epend Hi Hit Hsub Hpc.
    assert (Hkl : (k < length ts)%nat) by (apply lookup_lt_Some in Hk; exact Hk).
    assert (Hql : (q < length flags)%nat) by (apply lookup_lt_Some in Hm; exact Hm).
    assert (Hil : (i < length G)%nat) by (apply lookup_lt_Some in Hg; exact Hg).
    assert (Hat : forall k0 t0, <[k := t']> ts !! k0 = Some t0 -> exists t1, ts !! k0 = Some t1 /\ pend t0 = pend t1 /\ (k0 = k /\ t0 = t' \/ k0 <> k /\ t0 = t1)).
    { intros k0 t0 H. apply list_lookup_insert_Some in H. destruct H as [(-> & <- & _)|(N & H)]; [exists t; auto|]. exists t0. split; [exact H|]. split; [reflexivity|]. right. auto. }
    assert (Hother : forall k0 t1, ts !! k0 = Some t1 -> k0 <> k -> i ∉ pend t1).
    { intros k0 t1 H1 N H. apply N. eapply (li_own _ _ _ I); eassumption. }
    destruct I as [Ilen Ifl IG Ipath Iin Itodo Ipc Ionce Iown Idone]. split.
    - rewrite insert_length. exact Ilen.
    - intros p m' H. rewrite (cnt_insert _ _ _ _ _ Hg). apply list_lookup_insert_Some in H. destruct H as [(-> & <- & _)|(N & H)].
      + rewrite decide_True by reflexivity. rewrite (Ifl _ _ Hm). lia.
      + rewrite decide_False by exact N. apply Ifl. exact H.
    - rewrite insert_length. exact IG.
    - intros b g' H. apply list_lookup_insert_Some in H. destruct H as [(-> & <- & _)|(N & H)]; [right; eauto|eauto].
    - intros k0 t0 b H Hb. destruct (Hat _ _ H) as (t1 & H1 & E & _). rewrite E in Hb. eauto.
    - intros k0 t0 b H Hb. destruct (Hat _ _ H) as (t1 & H1 & E & [[-> ->]|[N ->]]).
      + assert (b <> i) by (intros ->; contradiction). rewrite list_lookup_insert_ne by congruence. eapply Itodo; [exact Hk|auto].
      + assert (b <> i). { intros ->. apply (Hother _ _ H1 N). unfold pend. apply elem_of_app. right. exact Hb. }
        rewrite list_lookup_insert_ne by congruence. eauto.
    - intros k0 t0 H. destruct (Hat _ _ H) as (t1 & H1 & E & [[-> ->]|[N ->]]).
      + destruct Hpc as [-> | ->]; cbn; exists (g ++ [q]); (rewrite list_lookup_insert by exact Hil; auto).
      + pose proof (Ipc _ _ H1) as P. pose proof (Hother _ _ H1 N) as Ni. unfold pend in Ni.
        destruct t1 as [is pc]. cbn in *. destruct pc as [|j p|j p|j p|]; cbn in *; auto;
          (rewrite list_lookup_insert_ne; [exact P|]; intros ->; apply Ni; constructor).
    - intros k0 t0 H. destruct (Hat _ _ H) as (t1 & H1 & E & _). rewrite E. eauto.
    - intros k1 k2 t1 t2 b H1 H2 B1 B2. destruct (Hat _ _ H1) as (t1' & H1' & E1 & _), (Hat _ _ H2) as (t2' & H2' & E2 & _).
      rewrite E1 in B1. rewrite E2 in B2. eauto.
    - intros b Hb. destruct (Idone b Hb) as [(k0 & t0 & H0 & B0)|[(g' & H0 & E0)|T]].
      + left. destruct (decide (k0 = k)) as [->|N].
        * exists k, t'. rewrite list_lookup_insert by exact Hkl. split; [reflexivity|]. rewrite Epend. pose proof (eq_trans (eq_sym H0) Hk) as E. injection E as ->. exact B0.
        * exists k0, t0. rewrite list_lookup_insert_ne by congruence. auto.
      + destruct (decide (b = i)) as [->|N].
        * left. exists k, t'. rewrite list_lookup_insert by exact Hkl. rewrite Epend. auto.
        * right. left. exists g'. rewrite list_lookup_insert_ne by congruence. auto.
      + right. right. eapply twice_insert; eassumption.
  Qed.

  (** the thread goes on without visiting anything; if it leaves an index, the list of that index is complete or an entry was visited twice *)
  Lemma move flags ts G k t t' : linv flags ts G -> ts !! k = Some t -> t'.1 = t.1 -> pc_ok G t'.2 ->
    cur t'.2 = cur t.2 \/ cur t'.2 = [] /\ (forall i, i ∈ cur t.2 -> (exists g, G !! i = Some g /\ entries off i g) \/ twice G) ->
    linv flags (<[k := t']> ts) G.
  Proof using Hn Hin Hbc.
    intros I Hk E1 Hpc Hc.
    assert (Hkl : (k < length ts)%nat) by (apply lookup_lt_Some in Hk; exact Hk).
    assert (Hat : forall k0 t0, <[k := t']> ts !! k0 = Some t0 -> exists t1, ts !! k0 = Some t1 /\ t0.1 = t1.1 /\ sublist (pend t0) (pend t1) /\ (k0 = k /\ t0 = t' \/ k0 <> k /\ t0 = t1)).
    { intros k0 t0 H. apply list_lookup_insert_Some in H. destruct H as [(-> & <- & _)|(N & H)].
      - exists t. split; [exact Hk|]. split; [exact E1|]. split; [|auto]. unfold pend. rewrite E1. destruct Hc as [->|[-> _]]; [reflexivity|]. apply sublist_inserts_l. reflexivity.
      - exists t0. split; [exact H|]. split; [reflexivity|]. split; [reflexivity|]. right. auto. }
    pose proof sublist_elem as Hsub.
    destruct I as [Ilen Ifl IG Ipath Iin Itodo Ipc Ionce Iown Idone]. split; auto.
    - intros k0 t0 b H Hb. destruct (Hat _ _ H) as (t1 & H1 & _ & S & _). eapply Iin; [exact H1|]. eapply Hsub; eassumption.
    - intros k0 t0 b H Hb. destruct (Hat _ _ H) as (t1 & H1 & E & _). eapply Itodo; [exact H1|]. rewrite <- E. exact Hb.
    - intros k0 t0 H. destruct (Hat _ _ H) as (t1 & H1 & _ & _ & [[-> ->]|[N ->]]); [exact Hpc|eauto].
    - intros k0 t0 H. destruct (Hat _ _ H) as (t1 & H1 & _ & S & _). eapply sublist_distinct; [exact S|]. eauto.
    - intros k1 k2 t1 t2 b H1 H2 B1 B2. destruct (Hat _ _ H1) as (t1' & H1' & _ & S1 & _), (Hat _ _ H2) as (t2' & H2' & _ & S2 & _).
      eapply Iown; [exact H1'|exact H2'| |]; eapply Hsub; eassumption.
    - intros b Hb. destruct (Idone b Hb) as [(k0 & t0 & H0 & B0)|?]; [|auto].
      destruct (decide (k0 = k)) as [->|N].
      + pose proof (eq_trans (eq_sym H0) Hk) as E. injection E as ->. unfold pend in B0. apply elem_of_app in B0. destruct B0 as [B0|B0].
        * destruct Hc as [Hc|[_ Hc]]; [|right; auto]. left. exists k, t'. rewrite list_lookup_insert by exact Hkl. split; [reflexivity|].
          unfold pend. rewrite Hc. apply elem_of_app. left. exact B0.
        * left. exists k, t'. rewrite list_lookup_insert by exact Hkl. split; [reflexivity|]. unfold pend. rewrite E1. apply elem_of_app. right. exact B0.
      + left. exists k0, t0. rewrite list_lookup_insert_ne by congruence. auto.
  Qed.

  Lemma linv_step flags ts G flags' ts' : linv flags ts G -> cstep (visit_step off) (flags, ts) (flags', ts') -> exists G', linv flags' ts' G'.
  Proof using Hn Hin Hbc.
    intros I Hs. inversion Hs as [s0 ls0 k t s1 t' Hk Ht]; subst s0 ls0 s1 ts'. clear Hs.
    destruct t as [is pc]. destruct pc as [|i p|i p|i p|].
    - destruct is as [|i is]; [discriminate|].
      assert (Hi : (i < bc)%nat) by (eapply (li_in _ _ _ I); [exact Hk|]; unfold pend; cbn; constructor).
      assert (Hg : G !! i = Some []) by (eapply (li_todo _ _ _ I); [exact Hk|]; constructor).
      destruct (lookup_lt_is_Some_2 flags i ltac:(rewrite (li_len _ _ _ I); lia)) as [m Em].
      assert (Ht2 : visit_step off k flags (i :: is, VHead) = Some (<[i := m + 1]> flags, (is, VOff i i))) by (cbn; rewrite Em; reflexivity).
      rewrite Ht2 in Ht. injection Ht as <- <-. exists (<[i := [] ++ [i]]> G).
      eapply visit; [exact I|exact Hk|exact Hg|constructor|exact Em|reflexivity|unfold pend; constructor| |intros b Hb; cbn in *; constructor; exact Hb|left; reflexivity].
      pose proof (li_once _ _ _ I _ _ Hk) as ND. unfold pend in ND. cbn in ND. apply NoDup_cons in ND. apply ND.
    - destruct (li_pc _ _ _ I _ _ Hk) as (g & Hg & Hp).
      assert (Hi : (i < bc)%nat) by (eapply (li_in _ _ _ I); [exact Hk|]; unfold pend; cbn; constructor).
      pose proof (path_bound _ _ _ Hp ltac:(lia)) as Hpn.
      destruct (lookup_lt_is_Some_2 off p ltac:(lia)) as [o Eo]. pose proof (Hin _ _ Eo) as Ho.
      assert (Ht2 : visit_step off k flags (is, VOff i p) = Some (flags, if o =? 0 then (is, VHead) else (is, VAdd i (Z.to_nat (Z.of_nat p + o))))).
      { destruct is; cbn; rewrite Eo; destruct (o =? 0); try reflexivity; rewrite (proj2 (Z.ltb_ge _ _)) by lia; reflexivity. }
      rewrite Ht2 in Ht. injection Ht as <- <-. exists G.
      destruct (Z.eqb_spec o 0) as [->|N].
      + eapply move; [exact I|exact Hk|reflexivity|exact Logic.I|]. right. split; [reflexivity|]. cbn. intros i' ->%elem_of_list_singleton. left. exists g.
        split; [exact Hg|]. eapply path_whole; eassumption.
      + eapply move; [exact I|exact Hk|reflexivity| |left; reflexivity]. cbn. exists g, p, o. repeat split; auto. lia.
    - destruct (li_pc _ _ _ I _ _ Hk) as (g & p0 & o & Hg & Hp & Eo & N & Q).
      assert (Hi : (i < bc)%nat) by (eapply (li_in _ _ _ I); [exact Hk|]; unfold pend; cbn; constructor).
      assert (Hp' : path i (g ++ [p]) p) by (econstructor; eassumption).
      pose proof (path_bound _ _ _ Hp' ltac:(lia)) as Hpn.
      destruct (lookup_lt_is_Some_2 flags p ltac:(rewrite (li_len _ _ _ I); lia)) as [m Em].
      assert (Ht2 : visit_step off k flags (is, VAdd i p) = Some (<[p := m + 1]> flags, (is, VCheck i p))) by (destruct is; cbn; rewrite Em; reflexivity).
      rewrite Ht2 in Ht. injection Ht as <- <-. exists (<[i := g ++ [p]]> G).
      eapply visit; [exact I|exact Hk|exact Hg|exact Hp'|exact Em|reflexivity|unfold pend; constructor| |auto|right; reflexivity].
      pose proof (li_once _ _ _ I _ _ Hk) as ND. unfold pend in ND. cbn in ND. apply NoDup_cons in ND. apply ND.
    - destruct (li_pc _ _ _ I _ _ Hk) as (g & Hg & Hp).
      assert (Hi : (i < bc)%nat) by (eapply (li_in _ _ _ I); [exact Hk|]; unfold pend; cbn; constructor).
      pose proof (path_bound _ _ _ Hp ltac:(lia)) as Hpn.
      destruct (lookup_lt_is_Some_2 flags p ltac:(rewrite (li_len _ _ _ I); lia)) as [m Em].
      assert (Ht2 : visit_step off k flags (is, VCheck i p) = Some (flags, if 1 <? m then (is, VHead) else (is, VOff i p))).
      { destruct is; cbn; rewrite Em; destruct (1 <? m); reflexivity. }
      rewrite Ht2 in Ht. injection Ht as <- <-. exists G.
      destruct (Z.ltb_spec 1 m) as [L|L].
      + eapply move; [exact I|exact Hk|reflexivity|exact Logic.I|]. right. split; [reflexivity|]. intros i' _. right. exists p. rewrite (li_flags _ _ _ I _ _ Em) in L. lia.
      + eapply move; [exact I|exact Hk|reflexivity| |left; reflexivity]. cbn. eauto.
    - destruct is; discriminate.
  Qed.

  Lemma linv_reach c c' : Conc.reach (visit_step off) c c' -> forall G, linv c.1 c.2 G -> exists G', linv c'.1 c'.2 G'.
  Proof using Hn Hin Hbc.
    induction 1 as [c|c1 c2 c3 H1 _ IH]; intros G I; [eauto|]. destruct c1 as [s ts], c2 as [s' ts'].
    destruct (linv_step _ _ _ _ _ I H1) as [G' I']. exact (IH G' I').
  Qed.

  Lemma concat_nils m : concat (replicate m ([] : list nat)) = [].
  Proof. induction m; [reflexivity|assumption]. Qed.

  Lemma nodup_own (progs : list (list nat)) : NoDup (concat progs) -> forall k p, progs !! k = Some p -> NoDup p /\
    forall k' p' b, progs !! k' = Some p' -> b ∈ p -> b ∈ p' -> k = k'.
  Proof.
    induction progs as [|a progs IH]; intros ND k p H; [discriminate|]. cbn in ND. apply NoDup_app in ND. destruct ND as (N1 & N2 & N3).
    assert (Hc : forall k p b, progs !! k = Some p -> b ∈ p -> b ∈ concat progs).
    { intros k0 p0 b H0 B. apply elem_of_list_In, in_concat. exists p0. rewrite <- !elem_of_list_In. split; [eapply elem_of_list_lookup_2; exact H0|exact B]. }
    destruct k as [|k]; cbn in H.
    - injection H as ->. split; [exact N1|]. intros [|k'] p' b H' B B'; [reflexivity|]. cbn in H'. destruct (N2 b B). eauto.
    - destruct (IH N3 k p H) as [M1 M2]. split; [exact M1|]. intros [|k'] p' b H' B B'; cbn in H'.
      + injection H' as ->. destruct (N2 b B'). eauto.
      + f_equal. eauto.
  Qed.

  Lemma linv_start progs : dealt bc progs -> linv (visit_start n) (visit_threads progs) (replicate bc []).
  Proof using Hn Hin Hbc.
    intros Hd.
    assert (Hat : forall k t, visit_threads progs !! k = Some t -> exists is, t = (is, VHead) /\ progs !! k = Some is).
    { intros k t. unfold visit_threads. rewrite list_lookup_fmap, fmap_Some. intros (is & E & ->). exists is. auto. }
    assert (ND : NoDup (concat progs)) by (rewrite Hd; apply NoDup_seq).
    assert (Hmem : forall k is b, progs !! k = Some is -> b ∈ is -> (b < bc)%nat).
    { intros k is b H B. assert (M : b ∈ seq 0 bc). { rewrite <- Hd. apply elem_of_list_In, in_concat. exists is. rewrite <- !elem_of_list_In. split; [eapply elem_of_list_lookup_2; exact H|exact B]. }
      apply elem_of_seq in M. lia. }
    split.
    - apply replicate_length.
    - intros p m H. apply lookup_replicate in H. destruct H as [-> _]. rewrite concat_nils. reflexivity.
    - apply replicate_length.
    - intros b g H. apply lookup_replicate in H. destruct H as [-> _]. left. reflexivity.
    - intros k t b H B. destruct (Hat _ _ H) as (is & -> & E). cbn in B. eauto.
    - intros k t b H B. destruct (Hat _ _ H) as (is & -> & E). cbn in B. apply lookup_replicate. split; [reflexivity|eauto].
    - intros k t H. destruct (Hat _ _ H) as (is & -> & E). exact Logic.I.
    - intros k t H. destruct (Hat _ _ H) as (is & -> & E). apply (nodup_own progs ND k is E).
    - intros k k' t t' b H H' B B'. destruct (Hat _ _ H) as (is & -> & E), (Hat _ _ H') as (is' & -> & E'). cbn in B, B'. eapply (nodup_own progs ND k is E); eassumption.
    - intros b Hb. left. assert (M : b ∈ seq 0 bc) by (apply elem_of_seq; lia). rewrite <- Hd in M. apply elem_of_list_In, in_concat in M. destruct M as (is & M1 & M2).
      rewrite <- !elem_of_list_In in *. apply elem_of_list_lookup in M1. destruct M1 as [k M1]. exists k, (is, VHead). unfold visit_threads. rewrite list_lookup_fmap, M1. split; [reflexivity|exact M2].
  Qed.

  (** with separate lists no entry is ever visited twice *)
  Lemma prefixes (lists G : list (list nat)) : length G = length lists -> (forall b g l, G !! b = Some g -> lists !! b = Some l -> exists m, l = g ++ m) ->
    forall p, (cnt (concat G) p <= cnt (concat lists) p)%nat.
  Proof.
    revert lists. induction G as [|g G IH]; intros [|l lists] HL HP p; try discriminate; [reflexivity|]. cbn.
    destruct (HP 0%nat g l eq_refl eq_refl) as [m ->]. rewrite !count_occ_app. specialize (IH lists ltac:(cbn in HL; lia) (fun b => HP (S b)) p). lia.
  Qed.
  Lemma separate_once flags ts G lists : linv flags ts G -> length lists = bc -> (forall b l, lists !! b = Some l -> entries off b l) ->
    (forall p, (cnt (concat G) p <= cnt (concat lists) p)%nat) /\ (forall b g p, G !! b = Some g -> p ∈ g -> exists l, lists !! b = Some l /\ p ∈ l).
  Proof.
    intros I HL He.
    assert (Hpre : forall b g l, G !! b = Some g -> lists !! b = Some l -> exists m, l = g ++ m).
    { intros b g l Hg Hl. destruct (li_path _ _ _ I _ _ Hg) as [->|[p Hp]]; [exists l; reflexivity|].
      destruct (path_prefix _ _ _ Hp _ (He _ _ Hl)) as (m & -> & _). eauto. }
    split.
    - apply prefixes; [rewrite (li_G _ _ _ I), HL; reflexivity|exact Hpre].
    - intros b g p Hg Hp. destruct (lookup_lt_is_Some_2 lists b) as [l Hl]; [rewrite HL, <- (li_G _ _ _ I); apply lookup_lt_Some in Hg; exact Hg|].
      exists l. split; [exact Hl|]. destruct (Hpre _ _ _ Hg Hl) as [m ->]. apply elem_of_app. left. exact Hp.
  Qed.

  Lemma linv_end flags ts G : linv flags ts G -> visited ts -> visit_result flags = true <-> lists_separate off bc.
  Proof using Hn Hin Hbc.
    intros I Hv. unfold visit_result. rewrite forallb_forall.
    assert (Hle : (forall x, In x flags -> (x <=? 1) = true) <-> forall p, (cnt (concat G) p <= 1)%nat).
    { split.
      - intros H p. destruct (decide (p ∈ concat G)) as [M|M]; [|rewrite (proj1 (count_occ_not_In Nat.eq_dec _ _)); [lia|rewrite <- elem_of_list_In; exact M]].
        assert (Hp : (p < n)%nat).
        { apply elem_of_list_In, in_concat in M. destruct M as (g & M1 & M2). rewrite <- !elem_of_list_In in *. apply elem_of_list_lookup in M1. destruct M1 as [b M1].
          destruct (li_path _ _ _ I _ _ M1) as [->|[q Hq]]; [inversion M2|].
          assert (Hb : (b < n)%nat) by (apply lookup_lt_Some in M1; rewrite (li_G _ _ _ I) in M1; lia).
          clear - M2 Hq Hb Hn Hin. induction Hq as [|l p0 o q Hq' IH E N Q].
          - apply elem_of_list_singleton in M2. subst. exact Hb.
          - apply elem_of_app in M2. destruct M2 as [M2|M2]; [auto|]. apply elem_of_list_singleton in M2. subst p. pose proof (Hin _ _ E). lia. }
        destruct (lookup_lt_is_Some_2 flags p ltac:(rewrite (li_len _ _ _ I); exact Hp)) as [m Em]. specialize (H m).
        rewrite <- elem_of_list_In in H. specialize (H (elem_of_list_lookup_2 _ _ _ Em)). rewrite (li_flags _ _ _ I _ _ Em) in H. lia.
      - intros H x Hx. rewrite <- elem_of_list_In in Hx. apply elem_of_list_lookup in Hx. destruct Hx as [p Hp]. rewrite (li_flags _ _ _ I _ _ Hp). specialize (H p). lia. }
    rewrite Hle. clear Hle. split.
    - intros H. exists G. split; [exact (li_G _ _ _ I)|]. split.
      + intros b l Hl. assert (Hb : (b < bc)%nat) by (apply lookup_lt_Some in Hl; rewrite (li_G _ _ _ I) in Hl; exact Hl).
        destruct (li_done _ _ _ I b Hb) as [(k & t & Hk & B)|[(g & Hg & E)|[p Hp]]].
        * rewrite (Hv t) in B by (eapply elem_of_list_lookup_2; exact Hk). inversion B.
        * congruence.
        * specialize (H p). lia.
      + apply NoDup_ListNoDup. apply (NoDup_count_occ Nat.eq_dec). exact H.
    - intros (lists & HL & He & ND) p. destruct (separate_once flags ts G lists I HL He) as [S _]. etransitivity; [apply S|].
      apply NoDup_ListNoDup in ND. rewrite (NoDup_count_occ Nat.eq_dec) in ND. apply ND.
  Qed.

  (** what a thread accesses belongs to the list of its index *)
  Lemma access_own flags ts G k t p b : linv flags ts G -> ts !! k = Some t -> flag_access t = Some (p, b) ->
    exists i, i ∈ pend t /\ (i < bc)%nat /\ forall l, entries off i l -> p ∈ l.
  Proof.
    intros I Hk Ha. pose proof (li_pc _ _ _ I _ _ Hk) as P. pose proof (li_in _ _ _ I k t) as B. destruct t as [is pc]. destruct pc as [|i q|i q|i q|].
    - destruct is as [|i is]; [discriminate|]. injection Ha as -> <-. exists p. unfold pend. cbn. split; [constructor|]. split; [apply B; [exact Hk|constructor]|]. intros l Hl. inversion Hl; constructor.
    - destruct is; discriminate.
    - assert (Ha' : q = p) by (destruct is; injection Ha; auto). subst q. destruct P as (g & p0 & o & Hg & Hp & Eo & N & Q).
      exists i. split; [unfold pend; constructor|]. split; [apply B; [exact Hk|unfold pend; constructor]|]. intros l Hl.
      destruct (path_prefix _ _ _ (PNext _ _ _ _ _ Hp Eo N Q) _ Hl) as (m & -> & _). rewrite !elem_of_app. left. right. constructor.
    - assert (Ha' : q = p) by (destruct is; injection Ha; auto). subst q. destruct P as (g & Hg & Hp).
      exists i. split; [unfold pend; constructor|]. split; [apply B; [exact Hk|unfold pend; constructor]|]. intros l Hl.
      destruct (path_prefix _ _ _ Hp _ Hl) as (m & -> & _). rewrite elem_of_app. left. eapply path_last; exact Hp.
    - destruct is; discriminate.
  Qed.
  Lemma no_common_access flags ts G k k' t t' p b b' : linv flags ts G -> lists_separate off bc -> k <> k' -> ts !! k = Some t -> ts !! k' = Some t' ->
    flag_access t = Some (p, b) -> flag_access t' = Some (p, b') -> False.
  Proof.
    intros I (lists & HL & He & ND) N Hk Hk' Ha Ha'.
    destruct (access_own _ _ _ _ _ _ _ I Hk Ha) as (i & Hi & Li & Mi), (access_own _ _ _ _ _ _ _ I Hk' Ha') as (i' & Hi' & Li' & Mi').
    destruct (lookup_lt_is_Some_2 lists i ltac:(lia)) as [l El], (lookup_lt_is_Some_2 lists i' ltac:(lia)) as [l' El'].
    destruct (nodup_own lists ND i l El) as [_ M]. assert (i = i') by (eapply M; [exact El'|apply Mi; eauto|apply Mi'; eauto]). subst i'.
    apply N. eapply (li_own _ _ _ I); eassumption.
  Qed.

  Lemma visit_not_stuck flags ts G k t : linv flags ts G -> ts !! k = Some t -> t = ([], VHead) \/ exists r, visit_step off k flags t = Some r.
  Proof.
    intros I Hk. pose proof (li_pc _ _ _ I _ _ Hk) as P. destruct t as [is pc]. destruct pc as [|i p|i p|i p|]; [| | | |destruct P].
    - destruct is as [|i is]; [left; reflexivity|]. right. cbn. destruct (flags !! i); eauto.
    - right. destruct is; cbn; destruct (off !! p) as [o|]; try (eauto; fail); destruct (o =? 0); try (eauto; fail); destruct (Z.of_nat p + o <? 0); eauto.
    - right. destruct is; cbn; destruct (flags !! p); eauto.
    - right. destruct is; cbn; destruct (flags !! p) as [m|]; try (eauto; fail); destruct (1 <? m); eauto.
  Qed.
End loop.

(** every schedule ends *)
Section ends.
  Context (off : list Z).
  Definition unvisited (m : Z) : Z := if m <=? 0 then 3 else 0.
  Definition pc_work (flags : list Z) (pc : visit_pc) : Z :=
    match pc with
    | VHead | VUndefined => 0
    | VOff _ _ => 3
    | VAdd _ _ => 2
    | VCheck _ p => match flags !! p with Some m => if 1 <? m then 1 else 4 | None => 1 end
    end.
  Definition work_of (flags : list Z) (t : visit_thread) : Z := 4 * Z.of_nat (length t.1) + pc_work flags t.2.
  Definition total_work (flags : list Z) (ts : list visit_thread) : Z := sumZ unvisited flags + sumZ (work_of flags) ts.

  Lemma work_of_mono flags q m t : flags !! q = Some m -> work_of (<[q := m + 1]> flags) t <= work_of flags t.
  Proof.
    intros H. unfold work_of. destruct t as [is pc]. destruct pc as [|i p|i p|i p|]; cbn [fst snd pc_work]; try lia.
    destruct (decide (q = p)) as [<-|N].
    - rewrite list_lookup_insert by (apply lookup_lt_Some in H; exact H). rewrite H. destruct (Z.ltb_spec 1 (m + 1)), (Z.ltb_spec 1 m); lia.
    - rewrite list_lookup_insert_ne by exact N. lia.
  Qed.
  Lemma sumZ_mono {A} (f g : A -> Z) (l : list A) : (forall x, f x <= g x) -> sumZ f l <= sumZ g l.
  Proof. intros H. induction l as [|a l IH]; cbn; [lia|]. specialize (H a). lia. Qed.
  Lemma unvisited_insert flags q m : flags !! q = Some m -> 0 <= m -> sumZ unvisited (<[q := m + 1]> flags) = sumZ unvisited flags - (if m =? 0 then 3 else 0).
  Proof. intros H Hm. rewrite (sumZ_insert _ _ _ _ _ H). unfold unvisited. destruct (Z.leb_spec m 0), (Z.leb_spec (m + 1) 0), (Z.eqb_spec m 0); lia. Qed.

  Lemma total_step flags ts flags' ts' : (forall p m, flags !! p = Some m -> 0 <= m) -> cstep (visit_step off) (flags, ts) (flags', ts') ->
    total_work flags' ts' + 1 <= total_work flags ts /\ (forall p m, flags' !! p = Some m -> 0 <= m).
  Proof.
    intros Hpos Hs. inversion Hs as [s0 ls0 k t s1 t' Hk Ht]; subst s0 ls0 s1 ts'. clear Hs. unfold total_work.
    assert (Same : flags' = flags -> work_of flags t' + 1 <= work_of flags t -> sumZ unvisited flags' + sumZ (work_of flags') (<[k:=t']> ts) + 1 <= sumZ unvisited flags + sumZ (work_of flags) ts /\ (forall p m, flags' !! p = Some m -> 0 <= m)).
    { intros -> H. split; [|exact Hpos]. rewrite (sumZ_insert _ _ _ _ _ Hk). lia. }
    assert (Add : forall q m, flags !! q = Some m -> flags' = <[q := m + 1]> flags -> work_of flags' t' + 1 <= work_of flags t + (if m =? 0 then 3 else 0) ->
      sumZ unvisited flags' + sumZ (work_of flags') (<[k:=t']> ts) + 1 <= sumZ unvisited flags + sumZ (work_of flags) ts /\ (forall p m, flags' !! p = Some m -> 0 <= m)).
    { intros q m Hq -> H. split.
      - rewrite (unvisited_insert _ _ _ Hq (Hpos _ _ Hq)). rewrite (sumZ_insert _ _ _ _ _ Hk).
        pose proof (sumZ_mono (work_of (<[q := m + 1]> flags)) (work_of flags) ts (fun x => work_of_mono _ _ _ x Hq)) as M.
        pose proof (work_of_mono _ _ _ t Hq) as M1.
        assert (D : sumZ (work_of (<[q:=m + 1]> flags)) ts - work_of (<[q:=m + 1]> flags) t <= sumZ (work_of flags) ts - work_of flags t); [|lia].
        clear - Hk Hq. revert k Hk. induction ts as [|a ts IH]; intros [|k] Hk; cbn in *; try discriminate.
        + injection Hk as ->. pose proof (sumZ_mono (work_of (<[q := m + 1]> flags)) (work_of flags) ts (fun x => work_of_mono _ _ _ x Hq)). lia.
        + specialize (IH k Hk). pose proof (work_of_mono _ _ _ a Hq). lia.
      - intros p m' Hp. apply list_lookup_insert_Some in Hp. destruct Hp as [(-> & <- & _)|(_ & Hp)]; [|eauto]. specialize (Hpos _ _ Hq). lia. }
    destruct t as [is pc]. destruct pc as [|i p|i p|i p|].
    - destruct is as [|i is]; [discriminate|]. cbn in Ht. destruct (flags !! i) as [m|] eqn:Em; injection Ht as <- <-.
      + apply (Add i m Em eq_refl). unfold work_of. cbn [fst snd pc_work length]. destruct (m =? 0); lia.
      + apply (Same eq_refl). unfold work_of. cbn [fst snd pc_work length]. lia.
    - assert (E : exists pc', flags' = flags /\ t' = (is, pc') /\ (pc' = VHead \/ pc' = VUndefined \/ exists q, pc' = VAdd i q)).
      { destruct is; cbn in Ht; (destruct (off !! p) as [o|]; [destruct (o =? 0); [|destruct (Z.of_nat p + o <? 0)]|]); injection Ht as <- <-; eexists; (split; [reflexivity|]); (split; [reflexivity|]); eauto. }
      destruct E as (pc' & E1 & -> & E2). apply (Same E1). unfold work_of. cbn [fst snd]. destruct E2 as [-> |[-> |[q ->]]]; cbn [pc_work]; lia.
    - destruct (flags !! p) as [m|] eqn:Em.
      + assert (E : flags' = <[p := m + 1]> flags /\ t' = (is, VCheck i p)) by (destruct is; cbn in Ht; rewrite Em in Ht; injection Ht as <- <-; auto).
        destruct E as [E1 ->]. apply (Add p m Em E1). unfold work_of. cbn [fst snd pc_work]. rewrite E1, list_lookup_insert by (apply lookup_lt_Some in Em; exact Em).
        pose proof (Hpos _ _ Em). destruct (Z.ltb_spec 1 (m + 1)), (Z.eqb_spec m 0); lia.
      + assert (E : flags' = flags /\ t' = (is, VUndefined)) by (destruct is; cbn in Ht; rewrite Em in Ht; injection Ht as <- <-; auto).
        destruct E as [E1 ->]. apply (Same E1). unfold work_of. cbn [fst snd pc_work]. lia.
    - assert (E : exists pc', flags' = flags /\ t' = (is, pc') /\ pc_work flags pc' + 1 <= pc_work flags (VCheck i p)).
      { cbn [pc_work]. destruct is; cbn in Ht; (destruct (flags !! p) as [m|]; [destruct (1 <? m)|]); injection Ht as <- <-; eexists; (split; [reflexivity|]); (split; [reflexivity|]); cbn; lia. }
      destruct E as (pc' & E1 & -> & E2). apply (Same E1). unfold work_of. cbn [fst snd]. lia.
    - destruct is; discriminate.
  Qed.
  Lemma total_run sched : forall c c', (forall p m, c.1 !! p = Some m -> 0 <= m) -> run (visit_step off) sched c = Some c' ->
    Z.of_nat (length sched) + total_work c'.1 c'.2 <= total_work c.1 c.2.
  Proof.
    induction sched as [|k sched IH]; intros [s ts] c' Hpos H; cbn in H; [injection H as <-; cbn; lia|].
    destruct (ts !! k) as [t|] eqn:Ek; [|discriminate]. destruct (visit_step off k s t) as [[s' t']|] eqn:Et; [|discriminate].
    destruct (total_step s ts s' (<[k := t']> ts) Hpos (CStep _ _ _ _ _ _ _ Ek Et)) as [D P]. specialize (IH (s', <[k := t']> ts) c' P H). cbn [fst snd length] in *. lia.
  Qed.
  Lemma total_nonneg flags ts : 0 <= total_work flags ts.
  Proof.
    unfold total_work. pose proof (sumZ_nonneg unvisited flags ltac:(intros; unfold unvisited; destruct (_ <=? 0); lia)).
    pose proof (sumZ_nonneg (work_of flags) ts) as M. enough (0 <= sumZ (work_of flags) ts) by lia. apply M. intros [is pc] _. unfold work_of. cbn [fst snd].
    enough (0 <= pc_work flags pc) by lia. destruct pc; cbn; try lia. destruct (flags !! p); [|lia]. destruct (1 <? z); lia.
  Qed.
  Lemma total_start n bc progs : dealt bc progs -> total_work (visit_start n) (visit_threads progs) = 3 * Z.of_nat n + 4 * Z.of_nat bc.
  Proof.
    intros Hd. unfold total_work. apply Permutation_length in Hd. rewrite seq_length in Hd. rewrite <- Hd. clear Hd bc.
    assert (E1 : sumZ unvisited (visit_start n) = 3 * Z.of_nat n). { unfold visit_start. induction n as [|n IH]; [reflexivity|]. cbn [replicate]. rewrite sumZ_cons, IH. unfold unvisited. cbn -[Z.mul]. lia. }
    rewrite E1. f_equal. clear E1. generalize (visit_start n). intros fl.
    induction progs as [|p progs IH]; [reflexivity|]. change (visit_threads (p :: progs)) with ((p, VHead) :: visit_threads progs).
    rewrite sumZ_cons, IH. cbn [concat]. rewrite app_length. unfold work_of. cbn -[Z.mul]. lia.
  Qed.
End ends.

(** the containers that can be reached have separate lists *)
Section reachable.
  Context {K V : Type} (kf : V -> K) (hash : K -> Z) (keq : K -> K -> bool) (opt : bool) (ord : nat -> list nat).
  Context (Hk : key_equality keq) (Hh : hash_respects keq hash) (Ho : any_order ord).
  Context (bc E : nat) (Hs : sizes_ok bc E) (fuel : nat) (Hf : (2 <= fuel)%nat).

  Lemma linked_entries off P : forall p, linked off p P -> entries off p (p :: P).
  Proof.
    induction P as [|q P IH]; intros p H; cbn in H; [constructor; exact H|]. destruct H as (N & E1 & H).
    eapply (LinkedEntry _ _ _ q); [exact E1|lia|lia|auto].
  Qed.
  Lemma heads_and_chains {A} (f : A -> list nat) (G : list A) : forall m, concat (zip_with (fun b g => b :: f g) (seq m (length G)) G) ≡ₚ seq m (length G) ++ (G ≫= f).
  Proof.
    induction G as [|g G IH]; intros m; [reflexivity|]. cbn [length seq zip_with concat]. rewrite (IH (S m)). cbn. constructor.
    rewrite !app_assoc. apply Permutation_app_tail. apply Permutation_app_comm.
  Qed.
  Lemma lists_reachable u0 u : reachable kf hash keq opt ord fuel bc E u0 u ->
    length (u_off u) = (bc + E)%nat /\ links_inside (u_off u) /\ lists_separate (u_off u) bc.
  Proof using All.
    intros (junk & ops & rs & Hops & Hc & Hr). destruct Hs as (Hb & HE & Hmax). pose proof Hk as (kr & ks & kt).
    destruct (UnorderedProofs.reach kf hash keq opt ord Ho kr ks kt Hh bc E Hb HE Hmax fuel Hf junk ops Hops) as (u0' & u'' & rs' & G & st & F0 & F1 & _ & R & _).
    rewrite Hc in F0. injection F0 as <-. rewrite Hr in F1. injection F1 as <- <-.
    split; [exact (ur_lf _ _ _ _ _ _ _ _ _ _ R)|]. split.
    { intros p o Hp. pose proof (ur_off _ _ _ _ _ _ _ _ _ _ R _ _ Hp). rewrite (ur_lf _ _ _ _ _ _ _ _ _ _ R). lia. }
    pose proof (ur_lg _ _ _ _ _ _ _ _ _ _ R) as LG.
    exists (zip_with (fun b g => b :: gpos g) (seq 0 (length G)) G). split; [rewrite zip_with_length, seq_length, LG; lia|]. split.
    - intros b l Hl. apply lookup_zip_with_Some in Hl. destruct Hl as (b' & g & -> & Hb' & Hg). apply lookup_seq in Hb'. destruct Hb' as [-> _].
      apply linked_entries. exact (ur_link _ _ _ _ _ _ _ _ _ _ R _ _ Hg).
    - rewrite heads_and_chains. pose proof (ur_perm _ _ _ _ _ _ _ _ _ _ R) as P.
      assert (ND : NoDup ((G ≫= gpos) ++ st)) by (rewrite P; apply NoDup_seq). apply NoDup_app in ND. destruct ND as (ND & _ & _).
      apply NoDup_app. split; [apply NoDup_seq|]. split; [|exact ND].
      intros x H1 H2. apply elem_of_seq in H1. assert (M : x ∈ (G ≫= gpos) ++ st) by (apply elem_of_app; left; exact H2). rewrite P in M. apply elem_of_seq in M. lia.
  Qed.
End reachable.
