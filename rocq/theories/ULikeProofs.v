(** Proofs about heterogeneous lookups: the walk of find_impl over the chain of the bucket of [x]. *)
From Verif Require Import Base Conc SlotModel Lifetime VectorModel BitModel HashProofs UnorderedModel UnorderedSpec UnorderedProofs ULikeModel.

Section like.
  Context {K V L : Type} (kf : V -> K) (eqL : K -> L -> bool).
  Implicit Types u : utab V.

  Definition lmatch (x : L) (es : list (nat * V)) : option nat := fst <$> find (fun e => eqL (kf e.2) x) es.
  Lemma entry_stored u p v x : stored u p v -> entry_like kf eqL u (Z.of_nat p) x = Ret (eqL (kf v) x).
  Proof. intros [H1 H2]. unfold entry_like. rewrite (u_occupied_nat _ _ _ H2). cbn [obind]. rewrite (u_value_nat _ _ _ H1). reflexivity. Qed.
  Lemma entry_free u p x : u_occ u !! p = Some false -> entry_like kf eqL u (Z.of_nat p) x = Ret false.
  Proof. intros H. unfold entry_like. rewrite (u_occupied_nat _ _ _ H). reflexivity. Qed.
  Lemma like_walk fuel u x p es : linked (u_off u) p es.*1 -> (forall q v, (q, v) ∈ es -> stored u q v) -> (length es < fuel)%nat ->
    find_like_loop kf eqL fuel u x (Z.of_nat p) = Ret (default (total_count u) (Z.of_nat <$> lmatch x es)).
  Proof.
    revert fuel p. induction es as [|[q v] es IH]; intros fuel p HL Hs Hf; (destruct fuel as [|fuel]; [cbn in Hf; lia|]); cbn [find_like_loop linked fmap list_fmap fst] in *.
    - rewrite (zat_nat _ _ _ HL). reflexivity.
    - destruct HL as (H1 & H2 & H3). rewrite (zat_nat _ _ _ H2). cbn [obind]. rewrite (proj2 (Z.eqb_neq _ _)) by lia.
      replace (Z.of_nat p + (Z.of_nat q - Z.of_nat p)) with (Z.of_nat q) by lia.
      rewrite (entry_stored _ _ v) by (apply Hs; left). cbn [obind]. unfold lmatch. cbn [find snd].
      destruct (eqL (kf v) x) eqn:Ek; [reflexivity|]. apply IH; [exact H3| |cbn in Hf; lia]. intros r w Hr. apply Hs. right. exact Hr.
  Qed.
  Lemma lmatch_Some x es p : lmatch x es = Some p -> exists v, (p, v) ∈ es /\ eqL (kf v) x = true.
  Proof.
    unfold lmatch. induction es as [|[q v] es IH]; cbn [find snd]; [discriminate|]. destruct (eqL (kf v) x) eqn:Ek.
    - cbn. intros [= ->]. exists v. split; [left|exact Ek].
    - intros H. destruct (IH H) as (w & H1 & H2). exists w. split; [right; exact H1|exact H2].
  Qed.
  Lemma lmatch_None x es : lmatch x es = None -> forall q v, (q, v) ∈ es -> eqL (kf v) x = false.
  Proof.
    unfold lmatch. induction es as [|[q v] es IH]; cbn [find snd]; [intros _ ? ? H; inversion H|]. destruct (eqL (kf v) x) eqn:Ek; [discriminate|].
    intros H r w Hr. apply elem_of_cons in Hr as [[= -> ->] |Hr]; [exact Ek|]. exact (IH H r w Hr).
  Qed.
End like.

(** the template at KeyLike = key_type is the find of UnorderedModel *)
Lemma loop_at_key {K V} (kf : V -> K) (keq : K -> K -> bool) fuel u k i : find_like_loop kf keq fuel u k i = find_loop kf keq fuel u k i.
Proof.
  revert i. induction fuel as [|fuel IH]; intros i; [reflexivity|]. cbn [find_like_loop find_loop]. destruct (zat (u_off u) i) as [o| |]; [|reflexivity..]. cbn [obind]. destruct (o =? 0); [reflexivity|].
  change (entry_like kf keq u (i + o) k) with (entry_matches kf keq u (i + o) k). destruct (entry_matches kf keq u (i + o) k) as [[|]| |]; [reflexivity| |reflexivity..]. apply IH.
Qed.
Lemma find_at_key {K V} (kf : V -> K) hash (keq : K -> K -> bool) u k : find_like kf hash keq u k = u_find kf hash keq u k.
Proof.
  unfold find_like, u_find. change (bucket_like hash u k) with (u_bucket hash u k). destruct (u_bucket hash u k) as [i| |]; [|reflexivity..]. cbn [obind].
  change (entry_like kf keq u i k) with (entry_matches kf keq u i k). destruct (entry_matches kf keq u i k) as [[|]| |]; [reflexivity| |reflexivity..]. apply loop_at_key.
Qed.

Section rep.
  Context {K V : Type} (kf : V -> K) (hash : K -> Z) (keq : K -> K -> bool) (opt : bool) (ord : nat -> list nat).
  Context (Hk : key_equality keq) (Hh : hash_respects keq hash) (Ho : any_order ord).
  Context (bc E : nat) (Hs : sizes_ok bc E).
  Let Hbc : (0 < bc)%nat. Proof using Hs. apply Hs. Qed.
  Let HE : (0 < E)%nat. Proof using Hs. apply Hs. Qed.
  Let Hmax : Z.of_nat (bc + E) <= INT_MAX. Proof using Hs. apply Hs. Qed.
  Let kr : forall a, keq a a = true. Proof using Hk. apply Hk. Qed.
  Let ks : forall a b, keq a b = true -> keq b a = true. Proof using Hk. apply Hk. Qed.
  Let kt : forall a b c, keq a b = true -> keq b c = true -> keq a c = true. Proof using Hk. apply Hk. Qed.

  Lemma find_like_rep {L : Type} (hashL : L -> Z) (eqL : K -> L -> bool) Lk u G st x : urep kf hash keq opt bc E Lk u G st ->
    (forall v p, u_value u p = Ret v -> eqL (kf v) x = true -> hash (kf v) = hashL x) ->
    exists p, find_like kf hashL eqL u x = Ret p /\ (p = total_count u /\ (forall q v, u_value u q = Ret v -> eqL (kf v) x = false) \/ 0 <= p < total_count u /\ exists v, u_value u p = Ret v /\ eqL (kf v) x = true).
  Proof using All.
    intros R Hx. set (b := match fibonacci_hashing (hashL x) (Z.of_nat bc) with Ret r => Z.to_nat r | _ => 0%nat end).
    assert (Eb : fibonacci_hashing (hashL x) (Z.of_nat bc) = Ret (Z.of_nat b) /\ (b < bc)%nat).
    { destruct (fib_range (hashL x) (Z.of_nat bc) ltac:(lia)) as (r & Er & Hr). unfold b. rewrite Er. split; [f_equal|]; lia. }
    destruct Eb as [Eb Hb]. destruct (bucket_exists kf hash keq opt ord Ho kr ks kt Hh bc E Hbc HE Hmax _ _ _ _ R b Hb) as [g Hg].
    pose proof (total_count_rep kf hash keq opt ord Ho kr ks kt Hh bc E Hbc HE Hmax _ _ _ _ R) as HT.
    assert (RNG : forall p v, u_values u !! p = Some (Some v) -> 0 <= Z.of_nat p < total_count u).
    { intros p v Hv. apply lookup_lt_Some in Hv. rewrite (ur_lv _ _ _ _ _ _ _ _ _ _ R) in Hv. lia. }
    (* a stored value that matches is in bucket b *)
    assert (MB : forall q v, u_value u q = Ret v -> eqL (kf v) x = true -> g.1 = Some v \/ exists p, (p, v) ∈ g.2).
    { intros q v Hv Hm. pose proof (Hx v q Hv Hm) as Hhx. unfold u_value, zat in Hv. destruct (0 <=? q); [|discriminate]. destruct (u_values u !! Z.to_nat q) as [[w|]|] eqn:Ev; try discriminate. injection Hv as ->.
      destruct (stored_in_bucket kf hash keq opt ord Ho kr ks kt Hh bc E Hbc HE Hmax _ _ _ _ _ _ R Ev) as (g' & Hg' & Hin).
      assert (bkt hash bc (kf v) = b) as Hbk by (unfold bkt, b; rewrite Hhx; reflexivity). rewrite Hbk in Hg'. rewrite Hg in Hg'. injection Hg' as <-. destruct Hin as [[_ H] |H]; eauto. }
    unfold find_like, bucket_like. rewrite (ur_bc _ _ _ _ _ _ _ _ _ _ R), Eb. cbn [obind]. rewrite (proj2 (Z.leb_le _ _)) by lia. rewrite (proj2 (Z.ltb_lt _ _)) by lia. cbn [andb obind].
    assert (HW : find_like_loop kf eqL (walk_fuel u) u x (Z.of_nat b) = Ret (default (total_count u) (Z.of_nat <$> lmatch kf eqL x g.2))).
    { apply like_walk; [exact (ur_link _ _ _ _ _ _ _ _ _ _ R _ _ Hg)| |exact (chain_length kf hash keq opt ord Ho kr ks kt Hh bc E Hbc HE Hmax _ _ _ _ R _ _ Hg)].
      intros q v Hq. exact (chain_stored kf hash keq opt ord Ho kr ks kt Hh bc E Hbc HE Hmax _ _ _ _ R _ _ _ _ Hg Hq). }
    pose proof (ur_head _ _ _ _ _ _ _ _ _ _ R _ _ Hg) as Hhd. pose proof (head_occ kf hash keq opt ord Ho kr ks kt Hh bc E Hbc HE Hmax _ _ _ _ R _ _ Hg) as Hoc.
    assert (TAIL : (forall v, g.1 = Some v -> eqL (kf v) x = false) -> exists p, find_like_loop kf eqL (walk_fuel u) u x (Z.of_nat b) = Ret p /\
       (p = total_count u /\ (forall q v, u_value u q = Ret v -> eqL (kf v) x = false) \/ 0 <= p < total_count u /\ exists v, u_value u p = Ret v /\ eqL (kf v) x = true)).
    { intros Hno. rewrite HW. eexists. split; [reflexivity|]. destruct (lmatch kf eqL x g.2) as [p|] eqn:EM; cbn [fmap option_fmap option_map default].
      - right. destruct (lmatch_Some _ _ _ _ _ EM) as (v & Hin & Hm). pose proof (ur_chain _ _ _ _ _ _ _ _ _ _ R _ _ _ _ Hg Hin) as Hv. split; [exact (RNG _ _ Hv)|]. exists v. split; [apply u_value_nat; exact Hv|exact Hm].
      - left. split; [reflexivity|]. intros q v Hv. destruct (eqL (kf v) x) eqn:Em; [|reflexivity]. destruct (MB q v Hv Em) as [H|[p H]]; [rewrite (Hno v H) in Em; discriminate|].
        rewrite (lmatch_None _ _ _ _ EM p v H) in Em. discriminate. }
    destruct (g.1) as [v|] eqn:Eg.
    - rewrite (entry_stored kf eqL _ _ v) by (split; [exact Hhd|exact Hoc]). cbn [obind]. destruct (eqL (kf v) x) eqn:Ek.
      + exists (Z.of_nat b). split; [reflexivity|]. right. split; [exact (RNG _ _ Hhd)|]. exists v. split; [apply u_value_nat; exact Hhd|exact Ek].
      + apply TAIL. intros w [= <-]. exact Ek.
    - rewrite entry_free by exact Hoc. cbn [obind]. apply TAIL. intros w [=].
  Qed.
  Lemma reach_rep fuel u0 u : (2 <= fuel)%nat -> reachable kf hash keq opt ord fuel bc E u0 u -> exists Lk G st, urep kf hash keq opt bc E Lk u G st.
  Proof using All.
    intros Hf (junk & ops & rs & Hops & Hc & Hr). destruct (reach kf hash keq opt ord Ho kr ks kt Hh bc E Hbc HE Hmax fuel Hf junk ops Hops) as (u0' & u' & rs' & G & st & E0 & E1 & R0 & R & H).
    rewrite Hc in E0. injection E0 as <-. rewrite Hr in E1. injection E1 as <- <-. eauto.
  Qed.
  Lemma same_lookup {L : Type} (hashL : L -> Z) (eqL : K -> L -> bool) u x k : hashL x = hash k -> (forall k', eqL k' x = keq k' k) ->
    find_like kf hashL eqL u x = u_find kf hash keq u k.
  Proof using Type.
    intros H1 H2. rewrite <- find_at_key. unfold find_like, bucket_like. rewrite H1.
    assert (EE : forall i, entry_like kf eqL u i x = entry_like kf keq u i k).
    { intros i. unfold entry_like. destruct (u_occupied u i) as [[|]| |]; [|reflexivity..]. cbn [obind]. destruct (u_value u i) as [v| |]; [|reflexivity..]. cbn [obind]. rewrite H2. reflexivity. }
    assert (EL : forall f i, find_like_loop kf eqL f u x i = find_like_loop kf keq f u k i).
    { induction f as [|f IH]; intros i; [reflexivity|]. cbn [find_like_loop]. destruct (zat (u_off u) i) as [o| |]; [|reflexivity..]. cbn [obind]. destruct (o =? 0); [reflexivity|]. rewrite EE.
      destruct (entry_like kf keq u (i + o) k) as [[|]| |]; [reflexivity| |reflexivity..]. cbn [obind]. apply IH. }
    destruct (fibonacci_hashing (hash k) (u_bc u)) as [r| |]; [|reflexivity..]. cbn [obind]. destruct ((0 <=? r) && (r <? u_bc u)); [|reflexivity]. cbn [obind]. rewrite EE.
    destruct (entry_like kf keq u r k) as [[|]| |]; [reflexivity| |reflexivity..]. cbn [obind]. apply EL.
  Qed.
End rep.
