(** Sequential unordered containers: refinement to an abstract bucket machine. *)
From Verif Require Import Base Conc SlotModel Lifetime VectorModel VectorProofs BitModel HashProofs UnorderedModel UnorderedSpec.

Lemma zat_nat {A} (l : list A) p x : l !! p = Some x -> zat l (Z.of_nat p) = Ret x.
Proof. intros H. unfold zat. rewrite (proj2 (Z.leb_le _ _)) by lia. rewrite Nat2Z.id, H. reflexivity. Qed.

(** ** linked lists of offsets *)
Fixpoint linked (off : list Z) (p : nat) (P : list nat) : Prop :=
  match P with
  | [] => off !! p = Some 0
  | q :: P => q <> p /\ off !! p = Some (Z.of_nat q - Z.of_nat p) /\ linked off q P
  end.
Definition lend (p : nat) (P : list nat) : nat := default p (last P).
Lemma lend_cons p q P : lend p (q :: P) = lend q P.
Proof. unfold lend. rewrite last_cons. destruct (last P); reflexivity. Qed.
Lemma lend_snoc p P q : lend p (P ++ [q]) = q.
Proof. unfold lend. rewrite last_snoc. reflexivity. Qed.
Lemma lend_elem p P : lend p P ∈ p :: P.
Proof.
  revert p. induction P as [|q P IH]; intros p; [left|]. rewrite lend_cons. right. apply IH.
Qed.

Lemma linked_lookup off p P : linked off p P -> forall q, q ∈ p :: P -> exists o, off !! q = Some o.
Proof.
  revert p. induction P as [|r P IH]; intros p; cbn [linked].
  - intros H q Hq. apply elem_of_list_singleton in Hq as ->. eauto.
  - intros (_ & H & HP) q Hq. apply elem_of_cons in Hq as [-> |Hq]; [eauto|]. apply (IH r HP q Hq).
Qed.
Lemma linked_ne off p P r o : r ∉ p :: P -> linked off p P -> linked (<[r:=o]> off) p P.
Proof.
  revert p. induction P as [|q P IH]; intros p Hr; cbn [linked].
  - intros H. rewrite list_lookup_insert_ne; [exact H|]. intros ->. apply Hr. left.
  - intros (H1 & H2 & H3). split; [exact H1|]. split.
    + rewrite list_lookup_insert_ne; [exact H2|]. intros ->. apply Hr. left.
    + apply IH; [|exact H3]. intros Hc. apply Hr. right. exact Hc.
Qed.
Lemma linked_last off p P : linked off p P -> off !! lend p P = Some 0.
Proof.
  revert p. induction P as [|q P IH]; intros p; cbn [linked]; [auto|]. intros (_ & _ & H). rewrite lend_cons. apply IH. exact H.
Qed.
Lemma linked_snoc off p P q : linked off p P -> NoDup (p :: P) -> q ∉ p :: P -> off !! q = Some 0 ->
  linked (<[lend p P := Z.of_nat q - Z.of_nat (lend p P)]> off) p (P ++ [q]).
Proof.
  revert p. induction P as [|r P IH]; intros p HL ND Hq Ho.
  - cbn in *. assert (q <> p) by (intros ->; apply Hq; left). split; [assumption|].
    rewrite list_lookup_insert by (apply lookup_lt_is_Some_1; eauto). split; [reflexivity|].
    rewrite list_lookup_insert_ne by congruence. exact Ho.
  - rewrite lend_cons. cbn [app linked] in *. destruct HL as (H1 & H2 & H3). apply NoDup_cons in ND as [N1 N2].
    split; [exact H1|]. split.
    + rewrite list_lookup_insert_ne; [exact H2|]. intros E. apply N1. rewrite <- E. apply lend_elem.
    + apply IH; auto. intros Hc. apply Hq. right. exact Hc.
Qed.
(** unlinking q: its predecessor takes over its offset *)
Definition unlink_offset (op oq : Z) : Z := if op =? 0 then 0 else oq + op.
Lemma linked_remove off p P1 q P2 op oq : linked off p (P1 ++ q :: P2) -> NoDup (p :: P1 ++ q :: P2) ->
  off !! q = Some op -> off !! lend p P1 = Some oq -> linked (<[lend p P1 := unlink_offset op oq]> off) p (P1 ++ P2).
Proof.
  revert p. induction P1 as [|r P IH]; intros p HL ND Hop Hoq.
  - cbn in *. destruct HL as (H1 & H2 & H3). rewrite H2 in Hoq. injection Hoq as <-.
    apply NoDup_cons in ND as [N1 N2]. apply NoDup_cons in N2 as [N2 N3].
    destruct P2 as [|r P2]; cbn in *.
    + rewrite H3 in Hop. injection Hop as <-. cbn. rewrite list_lookup_insert by (apply lookup_lt_is_Some_1; eauto). reflexivity.
    + destruct H3 as (H3 & H4 & H5). rewrite H4 in Hop. injection Hop as <-. unfold unlink_offset. rewrite (proj2 (Z.eqb_neq _ _)) by lia.
      assert (r <> p) by (intros ->; apply N1; right; left). split; [assumption|].
      rewrite list_lookup_insert by (apply lookup_lt_is_Some_1; eauto). split; [f_equal; lia|].
      apply linked_ne; [|exact H5]. intros Hc. apply N1. right. exact Hc.
  - rewrite lend_cons in *. cbn [app linked] in *. destruct HL as (H1 & H2 & H3). apply NoDup_cons in ND as [N1 N2].
    split; [exact H1|]. split; [|apply IH; auto].
    rewrite list_lookup_insert_ne; [exact H2|]. intros E. apply N1. rewrite <- E.
    pose proof (lend_elem r P) as He. apply elem_of_cons in He as [He|He]; [rewrite He; left|]. right. apply elem_of_app. left. exact He.
Qed.

Section walks.
  Context {K V : Type} (kf : V -> K) (keq : K -> K -> bool).
  Implicit Types u : utab V.

  Lemma list_end_walk fuel u p P : linked (u_off u) p P -> (length P < fuel)%nat -> list_end_loop fuel u (Z.of_nat p) = Ret (Z.of_nat (lend p P)).
  Proof.
    revert fuel p. induction P as [|q P IH]; intros fuel p HL Hf; (destruct fuel as [|fuel]; [cbn in Hf; lia|]); cbn [list_end_loop linked] in *.
    - rewrite (zat_nat _ _ _ HL). reflexivity.
    - destruct HL as (H1 & H2 & H3). rewrite (zat_nat _ _ _ H2). cbn [obind]. rewrite (proj2 (Z.eqb_neq _ _)) by lia.
      replace (Z.of_nat p + (Z.of_nat q - Z.of_nat p)) with (Z.of_nat q) by lia. rewrite lend_cons. apply IH; [exact H3|]. cbn in Hf. lia.
  Qed.
  Lemma previous_walk fuel u p P1 q P2 : linked (u_off u) p (P1 ++ q :: P2) -> q ∉ P1 -> (length P1 < fuel)%nat ->
    previous_loop fuel u (Z.of_nat q) (Z.of_nat p) (Z.of_nat p) = Ret (Z.of_nat (lend p P1)).
  Proof.
    revert fuel p. induction P1 as [|r P IH]; intros fuel p HL Hq Hf; (destruct fuel as [|fuel]; [cbn in Hf; lia|]); cbn [previous_loop linked app] in *;
      destruct HL as (H1 & H2 & H3); rewrite (zat_nat _ _ _ H2); cbn [obind]; rewrite (proj2 (Z.eqb_neq _ _)) by lia.
    - rewrite (proj2 (Z.eqb_eq _ _)) by lia. reflexivity.
    - rewrite (proj2 (Z.eqb_neq (Z.of_nat p + (Z.of_nat r - Z.of_nat p)) _)).
      2: { intros E. apply Hq. assert (r = q) by lia. subst. left. }
      replace (Z.of_nat p + (Z.of_nat r - Z.of_nat p)) with (Z.of_nat r) by lia. rewrite lend_cons. apply IH; [exact H3| |cbn in Hf; lia].
      intros Hc. apply Hq. right. exact Hc.
  Qed.

  (** entries of a chain: positions with the stored values *)
  Definition stored u (p : nat) (v : V) : Prop := u_values u !! p = Some (Some v) /\ u_occ u !! p = Some true.
  Definition first_match (k : K) (es : list (nat * V)) : option nat :=
    fst <$> find (fun e => keq (kf e.2) k) es.

  Lemma u_occupied_nat u p b : u_occ u !! p = Some b -> u_occupied u (Z.of_nat p) = Ret b.
  Proof.
    intros H. unfold u_occupied, total_count. pose proof (lookup_lt_Some _ _ _ H).
    rewrite (proj2 (Z.leb_le _ _)) by lia. rewrite (proj2 (Z.ltb_lt _ _)) by lia. cbn [andb]. apply zat_nat. exact H.
  Qed.
  Lemma u_value_nat u p v : u_values u !! p = Some (Some v) -> u_value u (Z.of_nat p) = Ret v.
  Proof. intros H. unfold u_value. rewrite (zat_nat _ _ _ H). reflexivity. Qed.
  Lemma stored_matches u p v k : stored u p v -> entry_matches kf keq u (Z.of_nat p) k = Ret (keq (kf v) k).
  Proof. intros [H1 H2]. unfold entry_matches. rewrite (u_occupied_nat _ _ _ H2). cbn [obind]. rewrite (u_value_nat _ _ _ H1). reflexivity. Qed.
  Lemma free_matches u p k : u_occ u !! p = Some false -> entry_matches kf keq u (Z.of_nat p) k = Ret false.
  Proof. intros H. unfold entry_matches. rewrite (u_occupied_nat _ _ _ H). reflexivity. Qed.

  Lemma find_walk fuel u k p es : linked (u_off u) p es.*1 -> (forall q v, (q, v) ∈ es -> stored u q v) -> (length es < fuel)%nat ->
    find_loop kf keq fuel u k (Z.of_nat p) = Ret (default (total_count u) (Z.of_nat <$> first_match k es)).
  Proof.
    revert fuel p. induction es as [|[q v] es IH]; intros fuel p HL Hs Hf; (destruct fuel as [|fuel]; [cbn in Hf; lia|]); cbn [find_loop linked fmap list_fmap fst] in *.
    - rewrite (zat_nat _ _ _ HL). reflexivity.
    - destruct HL as (H1 & H2 & H3). rewrite (zat_nat _ _ _ H2). cbn [obind]. rewrite (proj2 (Z.eqb_neq _ _)) by lia.
      replace (Z.of_nat p + (Z.of_nat q - Z.of_nat p)) with (Z.of_nat q) by lia.
      rewrite (stored_matches _ _ v) by (apply Hs; left). cbn [obind]. unfold first_match. cbn [find snd].
      destruct (keq (kf v) k) eqn:Ek; [reflexivity|]. apply IH; [exact H3| |cbn in Hf; lia]. intros r w Hr. apply Hs. right. exact Hr.
  Qed.
  Lemma bucket_size_walk fuel u p es r : linked (u_off u) p es.*1 -> (forall q v, (q, v) ∈ es -> stored u q v) -> (length es < fuel)%nat ->
    bucket_size_loop fuel u (Z.of_nat p) r = Ret (r + Z.of_nat (length es)).
  Proof.
    revert fuel p r. induction es as [|[q v] es IH]; intros fuel p r HL Hs Hf; (destruct fuel as [|fuel]; [cbn in Hf; lia|]); cbn [bucket_size_loop linked fmap list_fmap fst] in *.
    - rewrite (zat_nat _ _ _ HL). cbn. f_equal. lia.
    - destruct HL as (H1 & H2 & H3). rewrite (zat_nat _ _ _ H2). cbn [obind]. rewrite (proj2 (Z.eqb_neq _ _)) by lia.
      replace (Z.of_nat p + (Z.of_nat q - Z.of_nat p)) with (Z.of_nat q) by lia.
      destruct (Hs q v ltac:(left)) as [_ Ho]. rewrite (u_occupied_nat _ _ _ Ho). cbn [obind].
      rewrite IH; [f_equal; cbn; lia|exact H3| |cbn in Hf; lia]. intros a w Hr. apply Hs. right. exact Hr.
  Qed.
End walks.

Lemma bind_split {A B} (f : A -> list B) (l : list A) b x : l !! b = Some x ->
  exists rest, l ≫= f ≡ₚ f x ++ rest /\ (forall y, <[b:=y]> l ≫= f ≡ₚ f y ++ rest) /\ (forall b' z e, b' <> b -> l !! b' = Some z -> e ∈ f z -> e ∈ rest).
Proof.
  intros H. pose proof (lookup_lt_Some _ _ _ H) as Hlt.
  assert (HS : forall y, (take b l ++ y :: drop (S b) l) ≫= f ≡ₚ f y ++ ((take b l ≫= f) ++ (drop (S b) l ≫= f))).
  { intros y. rewrite bind_app. cbn [mbind list_bind]. rewrite !app_assoc. f_equiv. apply Permutation_app_comm. }
  exists ((take b l ≫= f) ++ (drop (S b) l ≫= f)). split; [|split].
  - rewrite <- (HS x). rewrite take_drop_middle by exact H. reflexivity.
  - intros y. rewrite insert_take_drop by exact Hlt. apply HS.
  - intros b' z e Hne Hz He. apply elem_of_app. destruct (decide (b' < b)%nat).
    + left. apply elem_of_list_bind. exists z. split; [exact He|]. apply elem_of_list_lookup. exists b'. rewrite lookup_take by assumption. exact Hz.
    + right. apply elem_of_list_bind. exists z. split; [exact He|]. apply elem_of_list_lookup. exists (b' - S b)%nat. rewrite lookup_drop. replace (S b + (b' - S b))%nat with b' by lia. exact Hz.
Qed.

Definition is_some {A} (o : option A) : bool := match o with Some _ => true | None => false end.
Definition olist {A} (o : option A) : list A := match o with Some x => [x] | None => [] end.
Definition gvals {V} (g : option V * list (nat * V)) : list V := olist g.1 ++ g.2.*2.
Definition gpos {V} (g : option V * list (nat * V)) : list nat := g.2.*1.

Section rep.
  Context {K V : Type} (kf : V -> K) (hash : K -> Z) (keq : K -> K -> bool) (opt : bool) (ord : nat -> list nat).
  Hypothesis Hord : forall n, ord n ≡ₚ seq 0 n.
  Hypothesis keq_refl : forall a, keq a a = true.
  Hypothesis keq_sym : forall a b, keq a b = true -> keq b a = true.
  Hypothesis keq_trans : forall a b c, keq a b = true -> keq b c = true -> keq a c = true.
  Hypothesis Hhash : forall a b, keq a b = true -> hash a = hash b.
  Context (bc E : nat).
  Hypothesis Hbc : (0 < bc)%nat.
  Hypothesis HE : (0 < E)%nat.
  Hypothesis Hmax : Z.of_nat (bc + E) <= INT_MAX.

  Definition bkt (k : K) : nat := match fibonacci_hashing (hash k) (Z.of_nat bc) with Ret r => Z.to_nat r | _ => 0%nat end.
  Lemma bkt_spec k : fibonacci_hashing (hash k) (Z.of_nat bc) = Ret (Z.of_nat (bkt k)) /\ (bkt k < bc)%nat.
  Proof using All.
    destruct (fib_range (hash k) (Z.of_nat bc) ltac:(lia)) as (r & Er & Hr). unfold bkt. rewrite Er. split; [f_equal|]; lia.
  Qed.
  Lemma bkt_keq a b : keq a b = true -> bkt a = bkt b.
  Proof using All. intros H. unfold bkt. rewrite (Hhash a b H). reflexivity. Qed.
  Lemma keq_sym_eq a b : keq a b = keq b a.
  Proof using All. destruct (keq a b) eqn:E1, (keq b a) eqn:E2; auto; [apply keq_sym in E1|apply keq_sym in E2]; congruence. Qed.

  Notation n := (bc + E)%nat.
  Implicit Types (u : utab V) (G : list (option V * list (nat * V))) (st : list nat) (L : list bool).

  Record urep L u G st : Prop := {
    ur_bc : u_bc u = Z.of_nat bc;
    ur_lv : length (u_values u) = n;
    ur_lf : length (u_off u) = n;
    ur_lo : length (u_occ u) = n;
    ur_li : length (u_indices u) = n;
    ur_lk : u_locks u = L;
    ur_ll : length L = n;
    ur_lg : length G = bc;
    ur_perm : (G ≫= gpos) ++ st ≡ₚ seq bc E;
    ur_head : forall b g, G !! b = Some g -> u_values u !! b = Some g.1;
    ur_link : forall b g, G !! b = Some g -> linked (u_off u) b (gpos g);
    ur_chain : forall b g p v, G !! b = Some g -> (p, v) ∈ g.2 -> u_values u !! p = Some (Some v);
    ur_free : forall p, p ∈ st -> u_values u !! p = Some None;
    ur_occ : forall p, u_occ u !! p = is_some <$> u_values u !! p;
    ur_off : forall p o, u_off u !! p = Some o -> 0 <= Z.of_nat p + o < Z.of_nat n;
    ur_count : u_count u = Z.of_nat (length (G ≫= gvals));
    ur_ex : vrep true E (u_excess u) (Z.of_nat <$> st);
    ur_bkt : forall b g v, G !! b = Some g -> v ∈ gvals g -> bkt (kf v) = b;
    ur_kd : forall b g, G !! b = Some g -> keys_distinct kf keq (gvals g);
    ur_life : opt = false -> lifetime_ok nothing (u_ev u) /\
      forall p, live_after nothing (u_ev u) (InSlot p) = match u_values u !! p with Some (Some _) => true | _ => false end
  }.

  Section facts.
    Context (L : list bool) (u : utab V) (G : list (option V * list (nat * V))) (st : list nat) (R : urep L u G st).

    Lemma pos_nodup : NoDup ((G ≫= gpos) ++ st).
    Proof using All. rewrite (ur_perm _ _ _ _ R). apply NoDup_seq. Qed.
    Lemma pos_range p : p ∈ (G ≫= gpos) ++ st -> (bc <= p < n)%nat.
    Proof using All. rewrite (ur_perm _ _ _ _ R). intros H. apply elem_of_seq in H. lia. Qed.
    Lemma in_pos b g p : G !! b = Some g -> p ∈ gpos g -> p ∈ G ≫= gpos.
    Proof. intros H Hp. apply elem_of_list_bind. exists g. split; [exact Hp|]. apply elem_of_list_lookup. eauto. Qed.
    Lemma chain_range b g p : G !! b = Some g -> p ∈ gpos g -> (bc <= p < n)%nat.
    Proof using All. intros H Hp. apply pos_range. apply elem_of_app. left. eapply in_pos; eauto. Qed.
    Lemma free_range p : p ∈ st -> (bc <= p < n)%nat.
    Proof using All. intros H. apply pos_range. apply elem_of_app. right. exact H. Qed.
    Lemma chain_not_free b g p : G !! b = Some g -> p ∈ gpos g -> p ∉ st.
    Proof using All.
      intros H Hp Hf. pose proof pos_nodup as ND. apply NoDup_app in ND as (_ & ND & _). apply (ND p); [|exact Hf]. eapply in_pos; eauto.
    Qed.
    Lemma chain_nodup b g : G !! b = Some g -> NoDup (b :: gpos g).
    Proof using All.
      intros H. apply NoDup_cons. split.
      - intros Hc. pose proof (chain_range b g b H Hc). apply lookup_lt_Some in H. rewrite (ur_lg _ _ _ _ R) in H. lia.
      - pose proof pos_nodup as ND. apply NoDup_app in ND as (ND & _ & _). destruct (bind_split gpos G b g H) as (rest & E1 & _). rewrite E1 in ND. apply NoDup_app in ND. tauto.
    Qed.
    Lemma chain_disjoint b b' g g' p : G !! b = Some g -> G !! b' = Some g' -> b <> b' -> p ∈ gpos g -> p ∉ gpos g'.
    Proof using All.
      intros H H' Hne Hp Hp'. pose proof pos_nodup as ND. apply NoDup_app in ND as (ND & _ & _). destruct (bind_split gpos G b g H) as (rest & E1 & _ & E3).
      rewrite E1 in ND. apply NoDup_app in ND as (_ & ND & _). apply (ND p Hp). eapply E3; eauto.
    Qed.
    Lemma head_range b g : G !! b = Some g -> (b < bc)%nat.
    Proof using All. intros H. apply lookup_lt_Some in H. rewrite (ur_lg _ _ _ _ R) in H. exact H. Qed.
    Lemma bucket_exists b : (b < bc)%nat -> exists g, G !! b = Some g.
    Proof using All. intros H. apply lookup_lt_is_Some_2. rewrite (ur_lg _ _ _ _ R). exact H. Qed.
    Lemma node_notin b b' g' p : G !! b' = Some g' -> (exists g, G !! b = Some g /\ p ∈ b :: gpos g) -> b <> b' -> p ∉ b' :: gpos g'.
    Proof using All.
      intros H' (g & H & Hp) Hne Hc. apply elem_of_cons in Hp as [-> |Hp]; apply elem_of_cons in Hc as [Hc|Hc].
      - congruence.
      - pose proof (chain_range _ _ _ H' Hc). pose proof (head_range _ _ H). lia.
      - subst. pose proof (chain_range _ _ _ H Hp). pose proof (head_range _ _ H'). lia.
      - exact (chain_disjoint b b' g g' p H H' Hne Hp Hc).
    Qed.
    Lemma chain_length b g : G !! b = Some g -> (length g.2 < walk_fuel u)%nat.
    Proof using All.
      intros H. unfold walk_fuel. rewrite (ur_lf _ _ _ _ R). pose proof (chain_nodup b g H) as ND. apply NoDup_cons in ND as [_ ND].
      assert (Hsub : gpos g ⊆+ seq bc E).
      { apply NoDup_submseteq; [exact ND|]. intros p Hp. pose proof (chain_range b g p H Hp). apply elem_of_seq. lia. }
      apply submseteq_length in Hsub. unfold gpos in Hsub. rewrite fmap_length, seq_length in Hsub. lia.
    Qed.
    Lemma total_count_rep : total_count u = Z.of_nat n.
    Proof using All. unfold total_count. rewrite (ur_lo _ _ _ _ R). reflexivity. Qed.
    Lemma bucket_rep k : u_bucket hash u k = Ret (Z.of_nat (bkt k)).
    Proof using All.
      unfold u_bucket. rewrite (ur_bc _ _ _ _ R). destruct (bkt_spec k) as [E1 E2]. rewrite E1. cbn [obind].
      rewrite (proj2 (Z.leb_le _ _)) by lia. rewrite (proj2 (Z.ltb_lt _ _)) by lia. reflexivity.
    Qed.
    Lemma chain_stored b g p v : G !! b = Some g -> (p, v) ∈ g.2 -> stored u p v.
    Proof using All. intros H Hp. pose proof (ur_chain _ _ _ _ R b g p v H Hp) as Hv. split; [exact Hv|]. rewrite (ur_occ _ _ _ _ R), Hv. reflexivity. Qed.
    Lemma head_occ b g : G !! b = Some g -> u_occ u !! b = Some (is_some g.1).
    Proof using All. intros H. rewrite (ur_occ _ _ _ _ R), (ur_head _ _ _ _ R b g H). reflexivity. Qed.

    Definition gfind (k : K) (b : nat) (g : option V * list (nat * V)) : option nat :=
      match g.1 with Some v => if keq (kf v) k then Some b else first_match kf keq k g.2 | None => first_match kf keq k g.2 end.
    Lemma find_rep k g : G !! bkt k = Some g -> u_find kf hash keq u k = Ret (default (Z.of_nat n) (Z.of_nat <$> gfind k (bkt k) g)).
    Proof using All.
      intros H. unfold u_find. rewrite bucket_rep. cbn [obind].
      assert (Hwalk : find_loop kf keq (walk_fuel u) u k (Z.of_nat (bkt k)) = Ret (default (Z.of_nat n) (Z.of_nat <$> first_match kf keq k g.2))).
      { rewrite (find_walk kf keq _ _ _ _ g.2); [rewrite total_count_rep; reflexivity|apply (ur_link _ _ _ _ R _ _ H)| |apply (chain_length _ _ H)].
        intros q v Hq. eapply chain_stored; eauto. }
      unfold gfind. pose proof (ur_head _ _ _ _ R _ _ H) as Hh. pose proof (head_occ _ _ H) as Ho. destruct (g.1) as [v|] eqn:Eg.
      - rewrite (stored_matches kf keq _ _ v) by (split; [exact Hh|exact Ho]). cbn [obind]. destruct (keq (kf v) k); [reflexivity|exact Hwalk].
      - rewrite free_matches by exact Ho. cbn [obind]. exact Hwalk.
    Qed.

    Lemma first_match_Some k (es : list (nat * V)) p : first_match kf keq k es = Some p -> exists es1 v es2, es = es1 ++ (p, v) :: es2 /\ keq (kf v) k = true /\ (forall w, w ∈ es1.*2 -> keq (kf w) k = false).
    Proof.
      unfold first_match. induction es as [|[q v] es IH]; cbn [find snd]; [discriminate|]. destruct (keq (kf v) k) eqn:Ek.
      - cbn. intros [= ->]. exists [], v, es. split; [reflexivity|]. split; [exact Ek|]. intros w Hw. inversion Hw.
      - intros H. destruct (IH H) as (es1 & w & es2 & -> & Hk & Hn). exists ((q, v) :: es1), w, es2. split; [reflexivity|]. split; [exact Hk|].
        intros w' Hw. cbn in Hw. apply elem_of_cons in Hw as [-> |Hw]; auto.
    Qed.
    Lemma first_match_None k (es : list (nat * V)) : first_match kf keq k es = None -> forall w, w ∈ es.*2 -> keq (kf w) k = false.
    Proof.
      unfold first_match. induction es as [|[q v] es IH]; cbn [find snd].
      - intros _ w Hw. inversion Hw.
      - destruct (keq (kf v) k) eqn:Ek; [discriminate|]. intros H w Hw. cbn in Hw. apply elem_of_cons in Hw as [-> |Hw]; auto.
    Qed.
    Lemma gfind_None k b g : gfind k b g = None -> forall w, w ∈ gvals g -> keq (kf w) k = false.
    Proof.
      unfold gfind, gvals. destruct (g.1) as [v|]; [destruct (keq (kf v) k) eqn:Ek; [discriminate|]|]; cbn [olist app]; intros H w Hw.
      - apply elem_of_cons in Hw as [-> |Hw]; [exact Ek|]. eapply first_match_None; eauto.
      - eapply first_match_None; eauto.
    Qed.
    Lemma gfind_stored k b g p : G !! b = Some g -> gfind k b g = Some p -> exists v, u_values u !! p = Some (Some v) /\ v ∈ gvals g /\ keq (kf v) k = true.
    Proof using All.
      intros H. pose proof (ur_head _ _ _ _ R _ _ H) as Hh. unfold gfind, gvals.
      assert (HF : first_match kf keq k g.2 = Some p -> exists v, u_values u !! p = Some (Some v) /\ v ∈ g.2.*2 /\ keq (kf v) k = true).
      { intros F. destruct (first_match_Some _ _ _ F) as (es1 & v & es2 & Ees & Hk & _). exists v. split; [|split; [|exact Hk]].
        - eapply (ur_chain _ _ _ _ R b g); [exact H|]. rewrite Ees. apply elem_of_app. right. left.
        - rewrite Ees. rewrite fmap_app. apply elem_of_app. right. left. }
      destruct (g.1) as [v|]; cbn [olist app].
      - destruct (keq (kf v) k) eqn:Ek; [intros [= ->]; exists v; split; [exact Hh|]; split; [left|exact Ek]|].
        intros F. destruct (HF F) as (w & W1 & W2 & W3). exists w. split; [exact W1|]. split; [right; exact W2|exact W3].
      - intros F. destruct (HF F) as (w & W1 & W2 & W3). eauto.
    Qed.
    Lemma stored_range p v : u_values u !! p = Some (Some v) -> (p < n)%nat.
    Proof using All. intros H. apply lookup_lt_Some in H. rewrite (ur_lv _ _ _ _ R) in H. exact H. Qed.
    Lemma contains_rep k g : G !! bkt k = Some g -> u_contains kf hash keq u k = Ret (is_some (gfind k (bkt k) g)).
    Proof using All.
      intros H. unfold u_contains. rewrite (find_rep _ _ H), total_count_rep. cbn [obind]. f_equal.
      destruct (gfind k (bkt k) g) as [p|] eqn:Eg.
      - change (negb (Z.of_nat p =? Z.of_nat n) = true). destruct (gfind_stored _ _ _ _ H Eg) as (v & Hv & _). pose proof (stored_range _ _ Hv). rewrite (proj2 (Z.eqb_neq _ _)) by lia. reflexivity.
      - change (negb (Z.of_nat n =? Z.of_nat n) = false). rewrite Z.eqb_refl. reflexivity.
    Qed.
  End facts.

  (** *** distinct keys *)
  Fixpoint kd (M : list V) : Prop := match M with [] => True | v :: M => (forall w, w ∈ M -> keq (kf v) (kf w) = false) /\ kd M end.
  Lemma kd_iff M : keys_distinct kf keq M <-> kd M.
  Proof using All.
    induction M as [|v M IH]; cbn [kd]; [split; [auto|intros _ i j v w H; destruct i; discriminate]|]. rewrite <- IH. split.
    - intros H. split.
      + intros w Hw. apply elem_of_list_lookup in Hw as [j Hj]. destruct (keq (kf v) (kf w)) eqn:Ek; [|reflexivity]. exfalso.
        pose proof (H 0%nat (S j) v w eq_refl Hj Ek). lia.
      + intros i j x y Hi Hj Hk. pose proof (H (S i) (S j) x y Hi Hj Hk). lia.
    - intros [H1 H2] i j x y Hi Hj Hk. destruct i as [|i], j as [|j]; cbn in Hi, Hj.
      + reflexivity.
      + injection Hi as ->. rewrite (H1 y) in Hk by (apply elem_of_list_lookup; eauto). discriminate.
      + injection Hj as ->. rewrite keq_sym_eq in Hk. rewrite (H1 x) in Hk by (apply elem_of_list_lookup; eauto). discriminate.
      + f_equal. eapply H2; eauto.
  Qed.
  Lemma kd_perm M M' : M ≡ₚ M' -> kd M -> kd M'.
  Proof using All.
    induction 1 as [|v M M' HP IH|v w M|M1 M2 M3 H1 IH1 H2 IH2]; cbn [kd]; auto.
    - intros [H1 H2]. split; [|auto]. intros w Hw. apply H1. rewrite HP. exact Hw.
    - intros (H1 & H2 & H3). split; [|split].
      + intros x Hx. apply elem_of_cons in Hx as [-> |Hx]; [rewrite keq_sym_eq; apply H1; left|apply H2; exact Hx].
      + intros x Hx. apply H1. right. exact Hx.
      + exact H3.
  Qed.
  Lemma kd_perm_iff M M' : M ≡ₚ M' -> keys_distinct kf keq M -> keys_distinct kf keq M'.
  Proof using All. intros HP. rewrite !kd_iff. apply kd_perm. exact HP. Qed.
  Lemma kd_cons v M : keys_distinct kf keq (v :: M) <-> (forall w, w ∈ M -> keq (kf w) (kf v) = false) /\ keys_distinct kf keq M.
  Proof using All. rewrite !kd_iff. cbn [kd]. split; intros [H1 H2]; (split; [|exact H2]); intros w Hw; [rewrite keq_sym_eq|rewrite keq_sym_eq]; auto. Qed.

  (** *** one bucket changes *)
  Lemma urep_update L u G st b g g' p ov u' L' st' : urep L u G st -> G !! b = Some g ->
    (forall b' g1, G !! b' = Some g1 -> b' <> b -> p ∉ b' :: gpos g1) -> (p < n)%nat ->
    u_bc u' = u_bc u -> u_values u' = <[p:=ov]> (u_values u) -> u_occ u' = <[p:=is_some ov]> (u_occ u) ->
    length (u_indices u') = n -> u_locks u' = L' -> length L' = n ->
    length (u_off u') = n -> (forall q o, u_off u' !! q = Some o -> 0 <= Z.of_nat q + o < Z.of_nat n) ->
    (forall b' g1, G !! b' = Some g1 -> b' <> b -> linked (u_off u') b' (gpos g1)) -> linked (u_off u') b (gpos g') ->
    u_values u' !! b = Some g'.1 -> (forall q v, (q, v) ∈ g'.2 -> u_values u' !! q = Some (Some v)) -> (forall q, q ∈ st' -> u_values u' !! q = Some None) ->
    gpos g ++ st ≡ₚ gpos g' ++ st' ->
    u_count u' = u_count u + Z.of_nat (length (gvals g')) - Z.of_nat (length (gvals g)) ->
    vrep true E (u_excess u') (Z.of_nat <$> st') ->
    (forall v, v ∈ gvals g' -> bkt (kf v) = b) -> keys_distinct kf keq (gvals g') ->
    (exists old, u_values u !! p = Some old /\ is_some old = negb (is_some ov)) ->
    u_ev u' = u_ev u ++ [if is_some ov then EvConstruct (InSlot p) else EvDestroy (InSlot p)] ->
    urep L' u' (<[b:=g']> G) st'.
  Proof using All.
    intros R HG Hp Hpn Ebc Ev Eo Li Lk Ll Lf Hoff Hl1 Hl2 Hh Hc Hf HP Hcnt Hex Hbk Hkd (old & Hold & Hio) Eev.
    assert (HG' : forall b' g1, <[b:=g']> G !! b' = Some g1 -> (b' = b /\ g1 = g') \/ (b' <> b /\ G !! b' = Some g1)).
    { intros b' g1 H. destruct (decide (b' = b)) as [-> |Hne].
      - rewrite list_lookup_insert in H by (eapply lookup_lt_Some; eauto). injection H as <-. auto.
      - rewrite list_lookup_insert_ne in H by congruence. auto. }
    destruct (bind_split gpos G b g HG) as (rest & P1 & P2 & P3).
    destruct (bind_split gvals G b g HG) as (vrest & V1 & V2 & V3).
    split.
    - rewrite Ebc. apply R.
    - rewrite Ev, insert_length. apply R.
    - exact Lf.
    - rewrite Eo, insert_length. apply R.
    - exact Li.
    - exact Lk.
    - exact Ll.
    - rewrite insert_length. apply R.
    - rewrite P2. rewrite <- (ur_perm _ _ _ _ R). rewrite P1. rewrite (Permutation_app_comm (gpos g')), (Permutation_app_comm (gpos g)).
      rewrite <- !app_assoc. rewrite HP. reflexivity.
    - intros b' g1 H. destruct (HG' _ _ H) as [[-> ->] |[Hne H1]]; [exact Hh|]. rewrite Ev. rewrite list_lookup_insert_ne; [apply (ur_head _ _ _ _ R _ _ H1)|].
      intros ->. apply (Hp _ _ H1 Hne). left.
    - intros b' g1 H. destruct (HG' _ _ H) as [[-> ->] |[Hne H1]]; [exact Hl2|auto].
    - intros b' g1 q v H Hq. destruct (HG' _ _ H) as [[-> ->] |[Hne H1]]; [auto|]. rewrite Ev. rewrite list_lookup_insert_ne; [apply (ur_chain _ _ _ _ R _ _ _ _ H1 Hq)|].
      intros ->. apply (Hp _ _ H1 Hne). right. unfold gpos. apply elem_of_list_fmap. exists (q, v). auto.
    - exact Hf.
    - intros q. rewrite Eo, Ev. destruct (decide (q = p)) as [-> |Hne].
      + rewrite !list_lookup_insert; [reflexivity|rewrite (ur_lv _ _ _ _ R)|rewrite (ur_lo _ _ _ _ R)]; exact Hpn.
      + rewrite !list_lookup_insert_ne by congruence. apply R.
    - exact Hoff.
    - rewrite Hcnt, (ur_count _ _ _ _ R). rewrite V1, V2, !app_length. lia.
    - exact Hex.
    - intros b' g1 v H Hv. destruct (HG' _ _ H) as [[-> ->] |[Hne H1]]; [auto|]. apply (ur_bkt _ _ _ _ R _ _ _ H1 Hv).
    - intros b' g1 H. destruct (HG' _ _ H) as [[-> ->] |[Hne H1]]; [auto|]. apply (ur_kd _ _ _ _ R _ _ H1).
    - intros Ho. destruct (ur_life _ _ _ _ R Ho) as [L1 L2]. rewrite Eev. rewrite lifetime_ok_app. pose proof (L2 p) as Lp. rewrite Hold in Lp. split.
      + split; [exact L1|]. destruct ov, old; try discriminate Hio; cbn; auto.
      + intros q. rewrite live_after_app, Ev. destruct (decide (q = p)) as [-> |Hne].
        * rewrite list_lookup_insert by (rewrite (ur_lv _ _ _ _ R); exact Hpn). destruct ov; cbn; rewrite decide_True by reflexivity; reflexivity.
        * rewrite list_lookup_insert_ne by congruence. rewrite <- L2. destruct ov; cbn; rewrite decide_False by congruence; reflexivity.
  Qed.

  Notation L0 := (replicate n false).

  Lemma urep_lock L u G st p x : urep L u G st -> urep (<[p:=x]> L) (set_lock u (Z.of_nat p) x) G st.
  Proof using All.
    intros R. destruct R. split; cbn [set_lock u_bc u_values u_off u_occ u_locks u_count u_excess u_indices u_ev]; auto.
    - rewrite Nat2Z.id. congruence.
    - rewrite insert_length. assumption.
  Qed.
  Lemma content_le L u G st : urep L u G st -> (length (G ≫= gvals) <= bc + length (G ≫= gpos))%nat /\ (length (G ≫= gpos) + length st = E)%nat.
  Proof using All.
    intros R. split.
    - rewrite <- (ur_lg _ _ _ _ R). clear R. induction G as [|g G IH]; [cbn; lia|]. cbn [mbind list_bind]. rewrite !app_length. cbn [length].
      unfold gvals at 1, gpos at 1. rewrite app_length, !fmap_length. unfold mbind in *. destruct (g.1); cbn [olist length]; lia.
    - pose proof (Permutation_length (ur_perm _ _ _ _ R)) as H. rewrite app_length, seq_length in H. exact H.
  Qed.
  Lemma try_lock_free L u G st p : urep L u G st -> L !! p = Some false -> try_lock u (Z.of_nat p) = Ret (set_lock u (Z.of_nat p) true, true).
  Proof using All. intros R H. unfold try_lock. rewrite (zat_nat _ p false); [reflexivity|]. rewrite (ur_lk _ _ _ _ R). exact H. Qed.
  Lemma L0_lookup p : (p < n)%nat -> L0 !! p = Some false.
  Proof using All. intros H. apply lookup_replicate_2. exact H. Qed.
  Lemma L0_back p : (p < n)%nat -> <[p:=false]> (<[p:=true]> L0) = L0.
  Proof using All. intros H. rewrite list_insert_insert. apply list_insert_id. apply L0_lookup. exact H. Qed.

  Lemma try_insert_present u G st v g p : urep L0 u G st -> G !! bkt (kf v) = Some g -> gfind (kf v) (bkt (kf v)) g = Some p ->
    u_try_insert kf hash keq u v = Ret (u, Z.of_nat n, failed_no_action_required).
  Proof using All.
    intros R H Hf. unfold u_try_insert. rewrite (contains_rep _ _ _ _ R _ _ H), Hf. cbn [obind is_some negb]. rewrite (total_count_rep _ _ _ _ R). reflexivity.
  Qed.

  Lemma try_insert_head u G st v es : urep L0 u G st -> u_count u < Z.of_nat n -> G !! bkt (kf v) = Some (None, es) -> gfind (kf v) (bkt (kf v)) (None, es) = None ->
    exists u', u_try_insert kf hash keq u v = Ret (u', Z.of_nat (bkt (kf v)), success) /\ u_values u' = <[bkt (kf v) := Some v]> (u_values u) /\
      urep L0 u' (<[bkt (kf v) := (Some v, es)]> G) st.
  Proof using All.
    intros R Hcnt H Hf. set (b := bkt (kf v)) in *. pose proof (head_range _ _ _ _ R _ _ H) as Hb. pose proof (ur_count _ _ _ _ R) as Ecnt.
    unfold u_try_insert. rewrite (contains_rep _ _ _ _ R _ _ H). fold b. rewrite Hf. cbn [obind is_some negb].
    rewrite (bucket_rep _ _ _ _ R). fold b. cbn [obind]. pose proof (head_occ _ _ _ _ R _ _ H) as Ho. rewrite (u_occupied_nat _ _ _ Ho). cbn [obind is_some negb fst].
    rewrite (try_lock_free _ _ _ _ _ R (L0_lookup b ltac:(lia))). cbn [obind].
    pose proof (urep_lock _ _ _ _ b true R) as R1. set (u1 := set_lock u (Z.of_nat b) true) in *.
    rewrite (contains_rep _ _ _ _ R1 _ _ H). fold b. rewrite Hf. cbn [obind is_some negb].
    pose proof (head_occ _ _ _ _ R1 _ _ H) as Ho1. rewrite (u_occupied_nat _ _ _ Ho1). cbn [obind is_some negb andb fst].
    unfold u_construct. rewrite (proj2 (Z.leb_le 0 (Z.of_nat b))) by lia. rewrite Nat2Z.id. pose proof (ur_head _ _ _ _ R1 _ _ H) as Hv1. rewrite Hv1. cbn [obind].
    unfold write_occ. cbn [set_count u_occ]. rewrite (zat_nat _ _ _ Ho1). cbn [obind].
    unfold unlock. cbn [set_occ set_count u_locks]. rewrite (zat_nat _ b true).
    2: { unfold u1. cbn [set_lock u_locks]. rewrite Nat2Z.id, (ur_lk _ _ _ _ R). apply list_lookup_insert. rewrite replicate_length. lia. }
    cbn [obind]. eexists. split; [reflexivity|]. split; [reflexivity|].
    eapply (urep_update _ _ _ _ b (None, es) (Some v, es) b (Some v) _ _ _ R H);
      unfold u1; cbn [set_lock set_occ set_count u_bc u_values u_off u_occ u_locks u_count u_excess u_indices u_ev gpos gvals olist fst snd is_some app]; rewrite ?Nat2Z.id; try reflexivity.
    - intros b' g1 H1 Hne Hc. eapply (node_notin _ _ _ _ R b b' g1 b); eauto. exists (None, es). split; [exact H|left].
    - lia.
    - apply R.
    - rewrite (ur_lk _ _ _ _ R). apply L0_back. lia.
    - apply replicate_length.
    - apply R.
    - apply R.
    - intros b' g1 H1 _. apply (ur_link _ _ _ _ R _ _ H1).
    - apply (ur_link _ _ _ _ R _ _ H).
    - apply list_lookup_insert. rewrite (ur_lv _ _ _ _ R). lia.
    - intros q w Hq. rewrite list_lookup_insert_ne; [apply (ur_chain _ _ _ _ R _ _ _ _ H Hq)|]. intros <-.
      assert (Hq' : b ∈ gpos (None, es) (V:=V)) by (unfold gpos; apply elem_of_list_fmap; exists (b, w); auto).
      pose proof (chain_range _ _ _ _ R _ _ _ H Hq'). lia.
    - intros q Hq. rewrite list_lookup_insert_ne; [apply (ur_free _ _ _ _ R _ Hq)|]. intros <-. pose proof (free_range _ _ _ _ R _ Hq). lia.
    - rewrite to_int32_id by (unfold INT_MAX in *; lia). cbn [length]. lia.
    - apply R.
    - intros w Hw. apply elem_of_cons in Hw as [-> |Hw]; [reflexivity|]. apply (ur_bkt _ _ _ _ R _ _ w H). exact Hw.
    - apply kd_cons. split; [|apply (ur_kd _ _ _ _ R _ _ H)]. intros w Hw. exact (gfind_None _ _ _ Hf w Hw).
    - exists None. split; [apply (ur_head _ _ _ _ R _ _ H)|reflexivity].
  Qed.

  Lemma try_insert_chain u G st v h es p : urep L0 u G (st ++ [p]) -> u_count u < Z.of_nat n -> G !! bkt (kf v) = Some (Some h, es) ->
    gfind (kf v) (bkt (kf v)) (Some h, es) = None ->
    exists u', u_try_insert kf hash keq u v = Ret (u', Z.of_nat p, success) /\ u_values u' = <[p := Some v]> (u_values u) /\
      urep L0 u' (<[bkt (kf v) := (Some h, es ++ [(p, v)])]> G) st.
  Proof using All.
    intros R Hcnt H Hf. set (b := bkt (kf v)) in *. pose proof (head_range _ _ _ _ R _ _ H) as Hb. pose proof (ur_count _ _ _ _ R) as Ecnt.
    assert (Hp : p ∈ st ++ [p]) by (apply elem_of_app; right; left). pose proof (free_range _ _ _ _ R _ Hp) as Hpr.
    pose proof (ur_link _ _ _ _ R _ _ H) as HL. pose proof (chain_nodup _ _ _ _ R _ _ H) as ND.
    pose proof (lend_elem b (gpos (Some h, es))) as Hle. set (e := lend b (gpos (Some h, es))) in *.
    assert (Hen : (e < n)%nat).
    { apply elem_of_cons in Hle as [-> |Hle]; [lia|]. pose proof (chain_range _ _ _ _ R _ _ _ H Hle). lia. }
    assert (Hpe : p ∉ b :: gpos (Some h, es)).
    { intros Hc. apply elem_of_cons in Hc as [-> |Hc]; [lia|]. exact (chain_not_free _ _ _ _ R _ _ _ H Hc Hp). }
    assert (Hne : p <> e) by (intros ->; contradiction).
    unfold u_try_insert. rewrite (contains_rep _ _ _ _ R _ _ H). fold b. rewrite Hf. cbn [obind is_some negb].
    rewrite (bucket_rep _ _ _ _ R). fold b. cbn [obind]. pose proof (head_occ _ _ _ _ R _ _ H) as Ho. rewrite (u_occupied_nat _ _ _ Ho). cbn [obind is_some negb fst].
    assert (Hend : forall L u', urep L u' G (st ++ [p]) -> find_linked_list_end u' (Z.of_nat b) = Ret (Z.of_nat e)).
    { intros L u' R'. unfold find_linked_list_end. rewrite (list_end_walk _ _ _ (gpos (Some h, es))); [reflexivity|apply (ur_link _ _ _ _ R' _ _ H)|].
      pose proof (chain_length _ _ _ _ R' _ _ H) as Hl. unfold gpos. rewrite fmap_length. exact Hl. }
    rewrite (Hend _ _ R). cbn [obind].
    rewrite (try_lock_free _ _ _ _ _ R (L0_lookup e Hen)). cbn [obind].
    pose proof (urep_lock _ _ _ _ e true R) as R1. set (u1 := set_lock u (Z.of_nat e) true) in *.
    rewrite (Hend _ _ R1). cbn [obind].
    rewrite (contains_rep _ _ _ _ R1 _ _ H). fold b. rewrite Hf. cbn [obind is_some negb]. rewrite Z.eqb_refl. cbn [andb].
    destruct (pop_back_rep true ord Hord E ltac:(lia) (u_excess u1) _ (ur_ex _ _ _ _ R1)) as (ex & Epop & Rex). rewrite fmap_app in Epop, Rex. change (Z.of_nat <$> [p]) with [Z.of_nat p] in Epop, Rex.
    rewrite last_snoc in Epop. rewrite removelast_last in Rex. rewrite Epop. cbn [obind].
    unfold u_construct. rewrite (proj2 (Z.leb_le 0 (Z.of_nat p))) by lia. cbn [set_excess u_values]. rewrite Nat2Z.id. pose proof (ur_free _ _ _ _ R _ Hp) as Hv1.
    change (u_values u1) with (u_values u). rewrite Hv1. cbn [obind].
    destruct (linked_lookup _ _ _ HL e Hle) as [oe Hoe].
    assert (exists op, u_off u !! p = Some op) as [op Hop] by (apply lookup_lt_is_Some_2; rewrite (ur_lf _ _ _ _ R); lia).
    unfold write_off. cbn [set_excess u_off]. change (u_off u1) with (u_off u). rewrite (zat_nat _ _ _ Hop). cbn [obind].
    unfold write_occ. cbn [set_count set_off set_excess u_occ]. change (u_occ u1) with (u_occ u). rewrite (zat_nat _ p false) by (rewrite (ur_occ _ _ _ _ R), Hv1; reflexivity). cbn [obind].
    cbn [set_occ set_count set_off set_excess u_off u_occ u_locks]. rewrite (zat_nat _ e oe) by (rewrite Nat2Z.id, list_lookup_insert_ne by exact Hne; exact Hoe). cbn [obind].
    unfold unlock. cbn [set_occ set_count set_off set_excess u_off u_occ u_locks]. rewrite (zat_nat _ e true).
    2: { unfold u1. cbn [set_lock u_locks]. rewrite Nat2Z.id, (ur_lk _ _ _ _ R). apply list_lookup_insert. rewrite replicate_length. lia. }
    cbn [obind]. eexists. split; [reflexivity|]. split; [reflexivity|].
    assert (Loff : length (<[e := Z.of_nat p - Z.of_nat e]> (<[p := 0]> (u_off u))) = n) by (rewrite !insert_length; apply R).
    eapply (urep_update _ _ _ _ b (Some h, es) (Some h, es ++ [(p, v)]) p (Some v) _ _ _ R H);
      unfold u1; cbn [set_lock set_occ set_count set_off set_excess u_bc u_values u_off u_occ u_locks u_count u_excess u_indices u_ev olist fst snd is_some]; rewrite ?Nat2Z.id; try reflexivity.
    - intros b' g1 H1 Hne' Hc. apply elem_of_cons in Hc as [-> |Hc]; [pose proof (head_range _ _ _ _ R _ _ H1); lia|].
      exact (chain_not_free _ _ _ _ R _ _ _ H1 Hc Hp).
    - lia.
    - apply R.
    - rewrite (ur_lk _ _ _ _ R). apply L0_back. exact Hen.
    - apply replicate_length.
    - exact Loff.
    - intros q o Hq. destruct (decide (q = e)) as [-> |Hq1].
      + rewrite list_lookup_insert in Hq by (rewrite insert_length, (ur_lf _ _ _ _ R); exact Hen). injection Hq as <-. lia.
      + rewrite list_lookup_insert_ne in Hq by congruence. destruct (decide (q = p)) as [-> |Hq2].
        * rewrite list_lookup_insert in Hq by (rewrite (ur_lf _ _ _ _ R); lia). injection Hq as <-. lia.
        * rewrite list_lookup_insert_ne in Hq by congruence. apply (ur_off _ _ _ _ R _ _ Hq).
    - intros b' g1 H1 Hne'. apply linked_ne.
      + eapply (node_notin _ _ _ _ R b b' g1 e); eauto.
      + apply linked_ne; [|apply (ur_link _ _ _ _ R _ _ H1)]. intros Hc. apply elem_of_cons in Hc as [-> |Hc]; [pose proof (head_range _ _ _ _ R _ _ H1); lia|].
        exact (chain_not_free _ _ _ _ R _ _ _ H1 Hc Hp).
    - unfold gpos. cbn [snd]. rewrite fmap_app. apply linked_snoc; [|exact ND|exact Hpe|].
      + apply linked_ne; [exact Hpe|exact HL].
      + apply list_lookup_insert. rewrite (ur_lf _ _ _ _ R). lia.
    - rewrite list_lookup_insert_ne by lia. apply (ur_head _ _ _ _ R _ _ H).
    - intros q w Hq. apply elem_of_app in Hq as [Hq|Hq].
      + rewrite list_lookup_insert_ne; [apply (ur_chain _ _ _ _ R _ _ _ _ H Hq)|]. intros <-. apply Hpe. right. unfold gpos. apply elem_of_list_fmap. exists (p, w). auto.
      + apply elem_of_list_singleton in Hq. injection Hq as -> ->. apply list_lookup_insert. rewrite (ur_lv _ _ _ _ R). lia.
    - intros q Hq. pose proof (pos_nodup _ _ _ _ R) as NDp. rewrite list_lookup_insert_ne; [apply (ur_free _ _ _ _ R); apply elem_of_app; left; exact Hq|]. intros <-.
      apply NoDup_app in NDp as (_ & _ & NDp). apply NoDup_app in NDp as (_ & NDp & _). apply (NDp p Hq). left.
    - unfold gpos. cbn [snd]. rewrite fmap_app, <- app_assoc. f_equiv. rewrite Permutation_app_comm. reflexivity.
    - rewrite to_int32_id by (unfold INT_MAX in *; lia). unfold gvals. cbn [fst snd olist app length]. rewrite fmap_app, app_length. cbn [fmap list_fmap length]. lia.
    - exact Rex.
    - intros w Hw. unfold gvals in Hw. cbn [fst snd] in Hw. rewrite fmap_app, app_assoc in Hw. apply elem_of_app in Hw as [Hw|Hw]; [apply (ur_bkt _ _ _ _ R _ _ w H); exact Hw|].
      apply elem_of_list_singleton in Hw. cbn in Hw. subst w. reflexivity.
    - apply (kd_perm_iff (v :: gvals (Some h, es))).
      + unfold gvals. cbn [fst snd]. rewrite fmap_app, app_assoc. cbn [fmap list_fmap snd]. rewrite (Permutation_app_comm _ [v]). reflexivity.
      + apply kd_cons. split; [|apply (ur_kd _ _ _ _ R _ _ H)]. intros w Hw. exact (gfind_None _ _ _ Hf w Hw).
    - exists None. split; [exact Hv1|reflexivity].
  Qed.

  Lemma size_rep L u G st : urep L u G st -> u_size u = Ret (Z.of_nat (length (G ≫= gvals))) /\ (length (G ≫= gvals) <= n)%nat.
  Proof using All.
    intros R. destruct (content_le _ _ _ _ R) as [H1 H2]. unfold u_size. rewrite (total_count_rep _ _ _ _ R), (ur_count _ _ _ _ R).
    rewrite (proj2 (Z.leb_le _ _)) by lia. rewrite (proj2 (Z.leb_le _ _)) by lia. split; [reflexivity|lia].
  Qed.
  Lemma full_rep L u G st : urep L u G st -> u_full u = Ret (bool_decide (length (G ≫= gvals) = n)).
  Proof using All.
    intros R. unfold u_full. destruct (size_rep _ _ _ _ R) as [-> _]. cbn [obind]. rewrite (total_count_rep _ _ _ _ R). f_equal.
    destruct (Z.eqb_spec (Z.of_nat (length (G ≫= gvals))) (Z.of_nat n)); [rewrite bool_decide_eq_true_2|rewrite bool_decide_eq_false_2]; auto; lia.
  Qed.
  Lemma excess_empty_rep L u G st : urep L u G st -> v_empty (u_excess u) = bool_decide (st = []).
  Proof using All.
    intros R. unfold v_empty. rewrite (rep_size true ord Hord E _ _ (ur_ex _ _ _ _ R)). rewrite fmap_length. destruct st; [reflexivity|].
    rewrite bool_decide_eq_false_2 by discriminate. reflexivity.
  Qed.

  (** the effect of an accepted insert *)
  Definition inserted G st (v : V) G' st' (q : nat) : Prop :=
    (exists es, G !! bkt (kf v) = Some (None, es) /\ q = bkt (kf v) /\ G' = <[bkt (kf v) := (Some v, es)]> G /\ st' = st) \/
    (exists h es, G !! bkt (kf v) = Some (Some h, es) /\ st = st' ++ [q] /\ G' = <[bkt (kf v) := (Some h, es ++ [(q, v)])]> G).
  Definition gin (k : K) G : option nat := g ← G !! bkt k; gfind k (bkt k) g.

  Lemma insert_rep fuel u G st v : (2 <= fuel)%nat -> urep L0 u G st ->
    (exists u' st' G' q, u_insert kf hash keq fuel u v = Ret (u', Z.of_nat q, true) /\ gin (kf v) G = None /\ length (G ≫= gvals) <> n /\ st <> [] /\
       urep L0 u' G' st' /\ inserted G st v G' st' q /\ u_values u' = <[q := Some v]> (u_values u) /\ (q < n)%nat) \/
    (u_insert kf hash keq fuel u v = Ret (u, Z.of_nat n, false) /\ (gin (kf v) G <> None \/ length (G ≫= gvals) = n \/ st = [])).
  Proof using All.
    intros Hfuel R. destruct fuel as [|[|fuel]]; [lia|lia|]. unfold u_insert. cbn [insert_loop snd fst].
    rewrite (full_rep _ _ _ _ R), (excess_empty_rep _ _ _ _ R). cbn [obind]. destruct (size_rep _ _ _ _ R) as [_ Hle].
    destruct (bool_decide (length (G ≫= gvals) = n)) eqn:Efull.
    { apply bool_decide_eq_true in Efull. right. cbn [negb andb]. rewrite (total_count_rep _ _ _ _ R). auto. }
    apply bool_decide_eq_false in Efull. destruct (bool_decide (st = [])) eqn:Est.
    { apply bool_decide_eq_true in Est. right. cbn [negb andb]. rewrite (total_count_rep _ _ _ _ R). auto. }
    apply bool_decide_eq_false in Est. cbn [negb andb].
    assert (Hcnt : u_count u < Z.of_nat n) by (rewrite (ur_count _ _ _ _ R); lia).
    destruct (bkt_spec (kf v)) as [_ Hb]. destruct (bucket_exists _ _ _ _ R _ Hb) as [[o es] Hg].
    destruct (gfind (kf v) (bkt (kf v)) (o, es)) as [p|] eqn:Ef.
    - right. rewrite (try_insert_present _ _ _ _ _ _ R Hg Ef). cbn [obind insert_loop fst snd]. split; [reflexivity|]. left. unfold gin. rewrite Hg. cbn. rewrite Ef. discriminate.
    - left. destruct o as [h|].
      + destruct st as [|p st _] using rev_ind; [contradiction|].
        destruct (try_insert_chain _ _ _ _ _ _ _ R Hcnt Hg Ef) as (u' & Et & Ev & R'). rewrite Et. cbn [obind insert_loop fst snd].
        assert (Hp : (p < n)%nat) by (assert (Hp : p ∈ st ++ [p]) by (apply elem_of_app; right; left); pose proof (free_range _ _ _ _ R _ Hp); lia).
        eexists u', st, _, p. split; [reflexivity|]. split; [unfold gin; rewrite Hg; exact Ef|]. split; [exact Efull|]. split; [exact Est|]. split; [exact R'|].
        split; [|split; [exact Ev|exact Hp]]. right. exists h, es. auto.
      + destruct (try_insert_head _ _ _ _ _ R Hcnt Hg Ef) as (u' & Et & Ev & R'). rewrite Et. cbn [obind insert_loop fst snd].
        eexists u', st, _, _. split; [reflexivity|]. split; [unfold gin; rewrite Hg; exact Ef|]. split; [exact Efull|]. split; [exact Est|]. split; [exact R'|].
        split; [|split; [exact Ev|lia]]. left. exists es. auto.
  Qed.

  (** erase *)
  Lemma try_erase_absent u G st k : urep L0 u G st -> gin k G = None -> u_try_erase kf hash keq u k = Ret (u, failed_no_action_required).
  Proof using All.
    intros R Hn. destruct (bkt_spec k) as [_ Hb]. destruct (bucket_exists _ _ _ _ R _ Hb) as [g Hg]. unfold gin in Hn. rewrite Hg in Hn. cbn in Hn.
    unfold u_try_erase. rewrite (find_rep _ _ _ _ R _ _ Hg), Hn. cbn [obind fmap option_fmap option_map from_option]. rewrite (total_count_rep _ _ _ _ R).
    change (id (Z.of_nat n)) with (Z.of_nat n). rewrite Z.eqb_refl. reflexivity.
  Qed.

  Lemma try_erase_head u G st k h es : urep L0 u G st -> G !! bkt k = Some (Some h, es) -> keq (kf h) k = true ->
    exists u', u_try_erase kf hash keq u k = Ret (u', success) /\ u_values u' = <[bkt k := None]> (u_values u) /\
      urep L0 u' (<[bkt k := (None, es)]> G) st.
  Proof using All.
    intros R H Hk. set (b := bkt k) in *. pose proof (head_range _ _ _ _ R _ _ H) as Hb. pose proof (ur_count _ _ _ _ R) as Ecnt.
    destruct (size_rep _ _ _ _ R) as [_ Hle].
    assert (Hf : gfind k b (Some h, es) = Some b) by (unfold gfind; cbn [fst]; rewrite Hk; reflexivity).
    unfold u_try_erase. rewrite (find_rep _ _ _ _ R _ _ H). fold b. rewrite Hf. cbn [obind fmap option_fmap option_map from_option]. change (id (Z.of_nat b)) with (Z.of_nat b).
    rewrite (total_count_rep _ _ _ _ R). rewrite (proj2 (Z.eqb_neq _ _)) by lia. cbn [negb]. rewrite (bucket_rep _ _ _ _ R). fold b. cbn [obind]. rewrite Z.eqb_refl.
    rewrite (try_lock_free _ _ _ _ _ R (L0_lookup b ltac:(lia))). cbn [obind].
    pose proof (urep_lock _ _ _ _ b true R) as R1. set (u1 := set_lock u (Z.of_nat b) true) in *.
    rewrite (find_rep _ _ _ _ R1 _ _ H). fold b. rewrite Hf. cbn [obind fmap option_fmap option_map from_option]. change (id (Z.of_nat b)) with (Z.of_nat b). rewrite Z.eqb_refl.
    pose proof (head_occ _ _ _ _ R _ _ H) as Ho. pose proof (ur_head _ _ _ _ R _ _ H) as Hv. cbn [fst is_some] in Ho, Hv.
    unfold write_occ. change (u_occ u1) with (u_occ u). rewrite (zat_nat _ _ _ Ho). cbn [obind].
    unfold u_destroy. rewrite (proj2 (Z.leb_le 0 (Z.of_nat b))) by lia. cbn [set_count set_occ u_values]. rewrite Nat2Z.id. change (u_values u1) with (u_values u). rewrite Hv. cbn [obind].
    unfold unlock. cbn [set_occ set_count u_locks]. rewrite (zat_nat _ b true).
    2: { unfold u1. cbn [set_lock u_locks]. rewrite Nat2Z.id, (ur_lk _ _ _ _ R). apply list_lookup_insert. rewrite replicate_length. lia. }
    cbn [obind]. eexists. split; [reflexivity|]. split; [reflexivity|].
    eapply (urep_update _ _ _ _ b (Some h, es) (None, es) b None _ _ _ R H);
      unfold u1; cbn [set_lock set_occ set_count u_bc u_values u_off u_occ u_locks u_count u_excess u_indices u_ev gpos gvals olist fst snd is_some app]; rewrite ?Nat2Z.id; try reflexivity.
    - intros b' g1 H1 Hne Hc. eapply (node_notin _ _ _ _ R b b' g1 b); eauto. exists (Some h, es). split; [exact H|left].
    - lia.
    - apply R.
    - rewrite (ur_lk _ _ _ _ R). apply L0_back. lia.
    - apply replicate_length.
    - apply R.
    - apply R.
    - intros b' g1 H1 _. apply (ur_link _ _ _ _ R _ _ H1).
    - apply (ur_link _ _ _ _ R _ _ H).
    - apply list_lookup_insert. rewrite (ur_lv _ _ _ _ R). lia.
    - intros q w Hq. rewrite list_lookup_insert_ne; [apply (ur_chain _ _ _ _ R _ _ _ _ H Hq)|]. intros <-.
      assert (Hq' : b ∈ gpos (None, es) (V:=V)) by (unfold gpos; apply elem_of_list_fmap; exists (b, w); auto).
      pose proof (chain_range _ _ _ _ R _ _ _ H Hq'). lia.
    - intros q Hq. rewrite list_lookup_insert_ne; [apply (ur_free _ _ _ _ R _ Hq)|]. intros <-. pose proof (free_range _ _ _ _ R _ Hq). lia.
    - rewrite to_int32_id by (unfold INT_MAX in *; lia). cbn [length]. lia.
    - apply R.
    - intros w Hw. apply (ur_bkt _ _ _ _ R _ _ w H). right. exact Hw.
    - pose proof (ur_kd _ _ _ _ R _ _ H) as Hkd. apply kd_cons in Hkd. apply Hkd.
    - exists (Some h). split; [exact Hv|reflexivity].
  Qed.

  Lemma try_erase_chain u G st k h es1 p v es2 : urep L0 u G st -> G !! bkt k = Some (h, es1 ++ (p, v) :: es2) -> keq (kf v) k = true ->
    gfind k (bkt k) (h, es1 ++ (p, v) :: es2) = Some p -> p <> bkt k ->
    exists u', u_try_erase kf hash keq u k = Ret (u', success) /\ u_values u' = <[p := None]> (u_values u) /\
      urep L0 u' (<[bkt k := (h, es1 ++ es2)]> G) (st ++ [p]).
  Proof using All.
    intros R H Hk Hf Hpb. set (b := bkt k) in *. pose proof (head_range _ _ _ _ R _ _ H) as Hb. pose proof (ur_count _ _ _ _ R) as Ecnt.
    destruct (size_rep _ _ _ _ R) as [_ Hle]. destruct (content_le _ _ _ _ R) as [_ Hst].
    pose proof (ur_link _ _ _ _ R _ _ H) as HL. pose proof (chain_nodup _ _ _ _ R _ _ H) as ND.
    set (g := (h, es1 ++ (p, v) :: es2)) in *.
    assert (Egp : gpos g = es1.*1 ++ p :: es2.*1) by (unfold gpos, g; cbn [snd]; rewrite fmap_app; reflexivity).
    assert (Hpin : p ∈ gpos g) by (rewrite Egp; apply elem_of_app; right; left).
    pose proof (chain_range _ _ _ _ R _ _ _ H Hpin) as Hpr.
    rewrite Egp in HL, ND. pose proof (lend_elem b es1.*1) as Hle0. set (e := lend b es1.*1) in *.
    assert (Hpe : p <> e).
    { intros E1. apply NoDup_cons in ND as [N1 N2]. apply NoDup_app in N2 as (N2 & N3 & N4). rewrite <- E1 in Hle0. apply elem_of_cons in Hle0 as [? |Hle0]; [congruence|]. apply (N3 _ Hle0). left. }
    assert (Hein : e ∈ b :: gpos g). { apply elem_of_cons in Hle0 as [-> |Hle0]; [left|]. right. rewrite Egp. apply elem_of_app. left. exact Hle0. }
    assert (Hen : (e < n)%nat). { apply elem_of_cons in Hein as [-> |Hin]; [lia|]. pose proof (chain_range _ _ _ _ R _ _ _ H Hin). lia. }
    assert (Hprev : forall L u', urep L u' G st -> find_previous_entry_position u' (Z.of_nat p) (Z.of_nat b) = Ret (Z.of_nat e)).
    { intros L u' R'. unfold find_previous_entry_position. rewrite (previous_walk _ _ _ (es1.*1) p (es2.*1)); [reflexivity| | |].
      - rewrite <- Egp. apply (ur_link _ _ _ _ R' _ _ H).
      - intros Hc. apply NoDup_cons in ND as [N1 N2]. apply NoDup_app in N2 as (N2 & N3 & N4). apply (N3 _ Hc). left.
      - pose proof (chain_length _ _ _ _ R' _ _ H) as Hl. unfold g in Hl. cbn [snd] in Hl. rewrite app_length in Hl. rewrite fmap_length. lia. }
    unfold u_try_erase. rewrite (find_rep _ _ _ _ R _ _ H). fold b. rewrite Hf. cbn [obind fmap option_fmap option_map from_option]. change (id (Z.of_nat p)) with (Z.of_nat p).
    rewrite (total_count_rep _ _ _ _ R). rewrite (proj2 (Z.eqb_neq _ (Z.of_nat n))) by lia. cbn [negb]. rewrite (bucket_rep _ _ _ _ R). fold b. cbn [obind]. rewrite (proj2 (Z.eqb_neq _ (Z.of_nat b))) by lia.
    rewrite (Hprev _ _ R). cbn [obind]. unfold try_lock2.
    rewrite (try_lock_free _ _ _ _ _ R (L0_lookup p ltac:(lia))). cbn [obind].
    pose proof (urep_lock _ _ _ _ p true R) as R1.
    rewrite (try_lock_free _ _ _ _ e R1). 2: { rewrite list_lookup_insert_ne by exact Hpe. apply L0_lookup. exact Hen. }
    cbn [obind]. rewrite Z.eqb_refl.
    pose proof (urep_lock _ _ _ _ e true R1) as R2. set (u1 := set_lock (set_lock u (Z.of_nat p) true) (Z.of_nat e) true) in *.
    rewrite (find_rep _ _ _ _ R2 _ _ H). fold b. rewrite Hf. cbn [obind fmap option_fmap option_map from_option]. change (id (Z.of_nat p)) with (Z.of_nat p).
    rewrite (Hprev _ _ R2). cbn [obind]. rewrite !Z.eqb_refl. cbn [andb].
    change (u_off u1) with (u_off u). rewrite <- Egp in HL. destruct (linked_lookup _ _ _ HL e Hein) as [oe Hoe]. destruct (linked_lookup _ _ _ HL p ltac:(right; exact Hpin)) as [op Hop].
    rewrite Egp in HL.
    rewrite (zat_nat _ _ _ Hop). cbn [obind].
    assert (Ew : (if negb (op =? 0) then let! oq := zat (u_off u) (Z.of_nat e) in write_off u1 (Z.of_nat e) (oq + op) else write_off u1 (Z.of_nat e) 0) = Ret (set_off u1 (Z.of_nat e) (unlink_offset op oe))).
    { rewrite (zat_nat _ _ _ Hoe). unfold write_off. change (u_off u1) with (u_off u). rewrite (zat_nat _ _ _ Hoe). unfold unlink_offset. cbn [obind]. destruct (op =? 0); reflexivity. }
    rewrite Ew. cbn [obind]. clear Ew.
    pose proof (ur_chain _ _ _ _ R _ _ p v H) as Hv. specialize (Hv ltac:(unfold g; cbn [snd]; apply elem_of_app; right; left)).
    assert (Ho : u_occ u !! p = Some true) by (rewrite (ur_occ _ _ _ _ R), Hv; reflexivity).
    unfold write_occ. cbn [set_off u_occ]. change (u_occ u1) with (u_occ u). rewrite (zat_nat _ _ _ Ho). cbn [obind].
    unfold u_destroy. rewrite (proj2 (Z.leb_le 0 (Z.of_nat p))) by lia. cbn [set_count set_occ set_off u_values]. rewrite Nat2Z.id. change (u_values u1) with (u_values u). rewrite Hv. cbn [obind].
    cbn [set_count set_occ set_off u_excess].
    destruct (push_back_rep true ord Hord E ltac:(lia) (u_excess u1) _ (Z.of_nat p) (ur_ex _ _ _ _ R2)) as (ex & Epush & Rex).
    assert (Hlt : (length (Z.of_nat <$> st) < E)%nat).
    { rewrite fmap_length. destruct (bind_split gpos G b g H) as (rest & P1 & _). rewrite P1, app_length, Egp, app_length in Hst. cbn [length] in Hst. lia. }
    rewrite decide_True in Rex by exact Hlt. rewrite Epush. cbn [obind].
    unfold unlock. cbn [set_lock set_excess set_occ set_count set_off u_locks]. rewrite (zat_nat _ p true).
    2: { rewrite (ur_lk _ _ _ _ R2). rewrite list_lookup_insert_ne by congruence. apply list_lookup_insert. rewrite replicate_length. lia. }
    cbn [obind set_lock set_excess set_occ set_count set_off u_locks]. rewrite (zat_nat _ e true).
    2: { rewrite Nat2Z.id. rewrite list_lookup_insert_ne by congruence. rewrite (ur_lk _ _ _ _ R2). apply list_lookup_insert. rewrite insert_length, replicate_length. lia. }
    cbn [obind]. eexists. split; [reflexivity|]. split; [reflexivity|].
    assert (Ep : (gvals g) ≡ₚ v :: gvals (h, es1 ++ es2)).
    { unfold gvals, g. cbn [fst snd]. rewrite !fmap_app. cbn [fmap list_fmap]. rewrite <- Permutation_middle. rewrite <- Permutation_middle. reflexivity. }
    eapply (urep_update _ _ _ _ b g (h, es1 ++ es2) p None _ _ _ R H);
      unfold u1; cbn [set_lock set_excess set_occ set_count set_off u_bc u_values u_off u_occ u_locks u_count u_excess u_indices u_ev fst snd is_some]; rewrite ?Nat2Z.id; try reflexivity.
    - intros b' g1 H1 Hne Hc. eapply (node_notin _ _ _ _ R b b' g1 p); eauto. exists g. split; [exact H|right; exact Hpin].
    - lia.
    - apply R.
    - rewrite (ur_lk _ _ _ _ R). rewrite (list_insert_commute (<[p:=true]> L0) p e) by congruence. rewrite (list_insert_insert _ p), (list_insert_insert _ e).
      rewrite (list_insert_id L0 p) by (apply L0_lookup; lia). apply list_insert_id. apply L0_lookup. exact Hen.
    - apply replicate_length.
    - rewrite insert_length. apply R.
    - intros q o Hq. destruct (decide (q = e)) as [-> |Hq1].
      + rewrite list_lookup_insert in Hq by (rewrite (ur_lf _ _ _ _ R); exact Hen). injection Hq as <-.
        pose proof (ur_off _ _ _ _ R _ _ Hop). unfold unlink_offset. destruct (op =? 0) eqn:E0; [lia|].
        assert (Hoe' : oe = Z.of_nat p - Z.of_nat e).
        { clear - HL Hoe. revert HL Hoe. unfold e. generalize b. induction (es1.*1) as [|r P IH]; intros b0 HL Hoe.
          - cbn in *. destruct HL as (_ & HL & _). congruence.
          - rewrite lend_cons in *. cbn [app linked] in HL. destruct HL as (_ & _ & HL). apply (IH r HL Hoe). }
        lia.
      + rewrite list_lookup_insert_ne in Hq by congruence. apply (ur_off _ _ _ _ R _ _ Hq).
    - intros b' g1 H1 Hne'. apply linked_ne; [|apply (ur_link _ _ _ _ R _ _ H1)]. eapply (node_notin _ _ _ _ R b b' g1 e); eauto.
    - unfold gpos. cbn [snd]. rewrite fmap_app. apply (linked_remove _ _ _ p); auto.
    - rewrite list_lookup_insert_ne by congruence. apply (ur_head _ _ _ _ R _ _ H).
    - intros q w Hq. assert (Hq' : (q, w) ∈ g.2). { unfold g. cbn [snd]. apply elem_of_app in Hq as [Hq|Hq]; apply elem_of_app; [left; exact Hq|right; right; exact Hq]. }
      rewrite list_lookup_insert_ne; [apply (ur_chain _ _ _ _ R _ _ _ _ H Hq')|]. intros <-.
      assert (Hc : p ∈ es1.*1 ++ es2.*1) by (rewrite <- fmap_app; apply elem_of_list_fmap; exists (p, w); auto).
      apply NoDup_cons in ND as [N1 N2]. rewrite <- Permutation_middle in N2. apply NoDup_cons in N2 as [N2 _]. apply N2. exact Hc.
    - intros q Hq. apply elem_of_app in Hq as [Hq|Hq].
      + rewrite list_lookup_insert_ne; [apply (ur_free _ _ _ _ R _ Hq)|]. intros <-. exact (chain_not_free _ _ _ _ R _ _ _ H Hpin Hq).
      + apply elem_of_list_singleton in Hq as ->. apply list_lookup_insert. rewrite (ur_lv _ _ _ _ R). lia.
    - rewrite Egp. unfold gpos. cbn [snd]. rewrite fmap_app. rewrite <- Permutation_middle. rewrite (Permutation_app_comm st [p]). cbn [app]. rewrite <- Permutation_middle. reflexivity.
    - rewrite to_int32_id by (unfold INT_MAX in *; lia). rewrite Ep. cbn [length]. lia.
    - rewrite fmap_app. exact Rex.
    - intros w Hw. apply (ur_bkt _ _ _ _ R _ _ w H). rewrite Ep. right. exact Hw.
    - pose proof (ur_kd _ _ _ _ R _ _ H) as Hkd. apply (kd_perm_iff _ _ Ep) in Hkd. apply kd_cons in Hkd. apply Hkd.
    - exists (Some v). split; [exact Hv|reflexivity].
  Qed.

  Definition erased G st (k : K) G' st' (q : nat) (v : V) : Prop :=
    (exists es, G !! bkt k = Some (Some v, es) /\ q = bkt k /\ G' = <[bkt k := (None, es)]> G /\ st' = st) \/
    (exists h es1 es2, G !! bkt k = Some (h, es1 ++ (q, v) :: es2) /\ (forall w, w ∈ olist h ++ es1.*2 -> keq (kf w) k = false) /\ G' = <[bkt k := (h, es1 ++ es2)]> G /\ st' = st ++ [q]).

  Lemma erase_rep fuel u G st k : (2 <= fuel)%nat -> urep L0 u G st ->
    (exists u' st' G' q v, u_erase kf hash keq fuel u k = Ret (u', 1) /\ urep L0 u' G' st' /\ erased G st k G' st' q v /\ keq (kf v) k = true /\
       u_values u !! q = Some (Some v) /\ u_values u' = <[q := None]> (u_values u) /\ gin k G = Some q) \/
    (u_erase kf hash keq fuel u k = Ret (u, 0) /\ gin k G = None).
  Proof using All.
    intros Hfuel R. destruct fuel as [|[|fuel]]; [lia|lia|]. unfold u_erase. cbn [erase_loop].
    destruct (gin k G) as [p|] eqn:Egin; [left|right; rewrite (try_erase_absent _ _ _ _ R Egin); cbn [obind erase_loop]; auto].
    destruct (bkt_spec k) as [_ Hb]. destruct (bucket_exists _ _ _ _ R _ Hb) as [[h es] Hg]. unfold gin in Egin. rewrite Hg in Egin. cbn in Egin.
    pose proof Egin as Ef. unfold gfind in Egin. cbn [fst snd] in Egin.
    assert (Hcase : (exists w, h = Some w /\ keq (kf w) k = true /\ p = bkt k) \/ (first_match kf keq k es = Some p /\ forall w, w ∈ olist h -> keq (kf w) k = false)).
    { destruct h as [w|]; [destruct (keq (kf w) k) eqn:Ek; [injection Egin as <-; left; eauto|]|]; right; (split; [exact Egin|]); intros x Hx; cbn in Hx.
      - apply elem_of_list_singleton in Hx as ->. exact Ek.
      - inversion Hx. }
    destruct Hcase as [(w & -> & Ek & ->) |[Hf Hno]].
    - destruct (try_erase_head _ _ _ _ _ _ R Hg Ek) as (u' & Et & Ev & R'). rewrite Et. cbn [obind erase_loop].
      eexists u', st, _, _, w. split; [reflexivity|]. split; [exact R'|]. split; [left; exists es; auto|]. split; [exact Ek|].
      split; [apply (ur_head _ _ _ _ R _ _ Hg)|]. split; [exact Ev|reflexivity].
    - destruct (first_match_Some _ _ _ Hf) as (es1 & v & es2 & -> & Hk & Hn).
      assert (Hin : p ∈ gpos (h, es1 ++ (p, v) :: es2)) by (unfold gpos; cbn [snd]; rewrite fmap_app; apply elem_of_app; right; left).
      pose proof (chain_range _ _ _ _ R _ _ _ Hg Hin) as Hpr.
      destruct (try_erase_chain _ _ _ _ _ _ _ _ _ R Hg Hk Ef ltac:(lia)) as (u' & Et & Ev & R'). rewrite Et. cbn [obind erase_loop].
      eexists u', _, _, p, v. split; [reflexivity|]. split; [exact R'|]. split.
      { right. exists h, es1, es2. split; [exact Hg|]. split; [|auto]. intros w Hw. apply elem_of_app in Hw as [Hw|Hw]; auto. }
      split; [exact Hk|]. split; [|split; [exact Ev|reflexivity]].
      apply (ur_chain _ _ _ _ R _ _ _ _ Hg). cbn [snd]. apply elem_of_app. right. left.
  Qed.

  Lemma bucket_size_rep L u G st b g : urep L u G st -> G !! b = Some g -> u_bucket_size u (Z.of_nat b) = Ret (Z.of_nat (length (gvals g))).
  Proof using All.
    intros R H. pose proof (head_range _ _ _ _ R _ _ H) as Hb. unfold u_bucket_size. rewrite (ur_bc _ _ _ _ R). rewrite (proj2 (Z.ltb_lt _ _)) by lia.
    rewrite (u_occupied_nat _ _ _ (head_occ _ _ _ _ R _ _ H)). cbn [obind].
    rewrite (bucket_size_walk kf keq _ _ _ g.2); [|apply (ur_link _ _ _ _ R _ _ H)|intros q v Hq; eapply chain_stored; eauto|eapply chain_length; eauto].
    unfold gvals. rewrite app_length, fmap_length. destruct (g.1); cbn; f_equal; lia.
  Qed.

  (** the stored values in position order *)
  Definition vals_at (vs : list (option V)) (i : nat) : list V := olist (default None (vs !! i)).
  Lemma vals_at_all (vs : list (option V)) : seq 0 (length vs) ≫= vals_at vs = vs ≫= olist.
  Proof.
    induction vs as [|x vs IH] using rev_ind; [reflexivity|]. rewrite app_length, seq_app, !bind_app. cbn [length seq Nat.add].
    f_equal.
    - rewrite <- IH. apply Forall_bind_ext. apply Forall_forall. intros i Hi. apply elem_of_seq in Hi. unfold vals_at. rewrite lookup_app_l by lia. reflexivity.
    - cbn. unfold vals_at. rewrite lookup_app_r, Nat.sub_diag by lia. reflexivity.
  Qed.
  Lemma bind_app_fun {A B} (f g : A -> list B) (l : list A) : l ≫= (fun x => f x ++ g x) ≡ₚ (l ≫= f) ++ (l ≫= g).
  Proof.
    induction l as [|x l IH]; [reflexivity|]. cbn [mbind list_bind]. unfold mbind in IH. rewrite IH. rewrite <- !app_assoc. apply Permutation_app_head. apply Permutation_app_swap_app.
  Qed.
  Lemma content_perm L u G st : urep L u G st -> u_values u ≫= olist ≡ₚ G ≫= gvals.
  Proof using All.
    intros R. rewrite <- vals_at_all, (ur_lv _ _ _ _ R). rewrite seq_app, bind_app. etransitivity; [|symmetry; exact (bind_app_fun (fun g : option V * list (nat * V) => olist g.1) (fun g => g.2.*2) G)]. apply Permutation_app.
    - assert (Eh : seq 0 bc ≫= vals_at (u_values u) = seq 0 (length G.*1) ≫= vals_at G.*1).
      { rewrite fmap_length, (ur_lg _ _ _ _ R). apply Forall_bind_ext. apply Forall_forall. intros i Hi. apply elem_of_seq in Hi.
        destruct (bucket_exists _ _ _ _ R i ltac:(lia)) as [g Hg]. unfold vals_at. rewrite (ur_head _ _ _ _ R _ _ Hg), list_lookup_fmap, Hg. reflexivity. }
      rewrite Eh, vals_at_all, list_fmap_bind. reflexivity.
    - cbn [Nat.add]. rewrite <- (ur_perm _ _ _ _ R). rewrite bind_app.
      assert (Es : st ≫= vals_at (u_values u) = []).
      { assert (Hs : forall q, q ∈ st -> vals_at (u_values u) q = []) by (intros q Hq; unfold vals_at; rewrite (ur_free _ _ _ _ R _ Hq); reflexivity).
        clear R. induction st as [|q st IH]; [reflexivity|]. cbn [mbind list_bind]. rewrite (Hs q) by left. apply IH. intros r Hr. apply Hs. right. exact Hr. }
      rewrite Es, app_nil_r.
      assert (Eb : (G ≫= gpos) ≫= vals_at (u_values u) = G ≫= (fun g => gpos g ≫= vals_at (u_values u))).
      { clear. induction G as [|g G IH]; [reflexivity|]. change ((gpos g ++ (G ≫= gpos)) ≫= vals_at (u_values u) = (gpos g ≫= vals_at (u_values u)) ++ (G ≫= (fun g => gpos g ≫= vals_at (u_values u)))). rewrite <- IH. apply bind_app. }
      rewrite Eb. assert (Ec : G ≫= (fun g => gpos g ≫= vals_at (u_values u)) = G ≫= (fun g => g.2.*2)).
      { apply Forall_bind_ext. apply Forall_forall. intros g Hg. apply elem_of_list_lookup in Hg as [b Hg].
        assert (Hc : forall q v, (q, v) ∈ g.2 -> vals_at (u_values u) q = [v]) by (intros q v Hq; unfold vals_at; rewrite (ur_chain _ _ _ _ R _ _ _ _ Hg Hq); reflexivity).
        unfold gpos. clear - Hc. induction (g.2) as [|[q v] es IH]; [reflexivity|].
        change (vals_at (u_values u) q ++ (es.*1 ≫= vals_at (u_values u)) = v :: es.*2). rewrite (Hc q v) by left. cbn [app]. apply (f_equal (cons v)).
        apply IH. intros r w Hr. apply Hc. right. exact Hr. }
      rewrite Ec. reflexivity.
  Qed.

  (** *** device_range *)
  Lemma collect_fold u (l : list nat) : (forall i, i ∈ l -> exists b, u_occ u !! i = Some b) -> forall r e, 
    (e + length (filter (fun i => u_occ u !! i = Some true) l) <= length r)%nat ->
    exists r', fold_left (fun acc i => let! s := acc in collect_position u i s) l (Ret (r, Z.of_nat e)) =
        Ret (r', Z.of_nat (e + length (filter (fun i => u_occ u !! i = Some true) l))) /\ length r' = length r /\
      take (e + length (filter (fun i => u_occ u !! i = Some true) l)) r' = take e r ++ (Z.of_nat <$> filter (fun i => u_occ u !! i = Some true) l).
  Proof using All.
    induction l as [|i l IH]; intros Hl r e Hle.
    - exists r. cbn. rewrite Nat.add_0_r, app_nil_r. auto.
    - cbn [fold_left]. rewrite filter_cons in *. destruct (Hl i ltac:(left)) as [b Hb]. cbn [obind]. unfold collect_position at 2. rewrite (u_occupied_nat _ _ _ Hb). cbn [obind fst snd].
      destruct b.
      + rewrite decide_True in * by exact Hb. cbn [length] in *.
        assert (exists x, r !! e = Some x) as [x Hx] by (apply lookup_lt_is_Some_2; lia). rewrite (zat_nat _ _ _ Hx). cbn [obind]. rewrite Nat2Z.id.
        destruct (IH ltac:(intros j Hj; apply Hl; right; exact Hj) (<[e:=Z.of_nat i]> r) (S e) ltac:(rewrite insert_length; lia)) as (r' & E1 & E2 & E3).
        exists r'. replace (Z.of_nat e + 1) with (Z.of_nat (S e)) by lia. rewrite E1. rewrite insert_length in E2.
        replace (S e + length (filter (λ i0 : nat, u_occ u !! i0 = Some true) l))%nat with (e + S (length (filter (λ i0 : nat, u_occ u !! i0 = Some true) l)))%nat in * by lia.
        split; [reflexivity|]. split; [exact E2|]. rewrite E3. rewrite (take_S_r _ _ (Z.of_nat i)) by (apply list_lookup_insert; lia).
        rewrite take_insert by lia. rewrite <- app_assoc. reflexivity.
      + rewrite decide_False in * by congruence. apply IH; [|exact Hle]. intros j Hj. apply Hl. right. exact Hj.
  Qed.

  Lemma range_rep L u G st : urep L u G st ->
    exists r, u_range ord u = Ret (set_indices u r, Z.of_nat <$> filter (fun i => u_occ u !! i = Some true) (ord n)) /\ length r = n /\
      exists l, mapM (fun i => u_values u !! Z.to_nat i ≫= id) (Z.of_nat <$> filter (fun i => u_occ u !! i = Some true) (ord n)) = Some l /\ l ≡ₚ G ≫= gvals.
  Proof using All.
    intros R. unfold u_range, u_for_each. rewrite (total_count_rep _ _ _ _ R), Nat2Z.id.
    assert (Hin : forall i, i ∈ ord n -> (i < n)%nat) by (intros i Hi; rewrite (Hord n) in Hi; apply elem_of_seq in Hi; lia).
    assert (Hoc : forall i, i ∈ ord n -> exists b, u_occ u !! i = Some b) by (intros i Hi; apply lookup_lt_is_Some_2; rewrite (ur_lo _ _ _ _ R); auto).
    destruct (collect_fold u (ord n) Hoc (u_indices u) 0%nat) as (r & E1 & E2 & E3).
    { cbn [Nat.add]. rewrite (ur_li _ _ _ _ R). etransitivity; [apply filter_length|]. rewrite (Hord n), seq_length. lia. }
    cbn [Nat.add] in *. change (Z.of_nat 0) with 0 in E1. rewrite E1. cbn [obind]. rewrite Nat2Z.id, E3, take_0. cbn [app]. exists r. split; [reflexivity|].
    split; [rewrite E2; apply (ur_li _ _ _ _ R)|].
    exists (ord n ≫= vals_at (u_values u)). split; [|rewrite (Hord n); rewrite <- (ur_lv _ _ _ _ R), vals_at_all; apply (content_perm _ _ _ _ R)].
    clear E1 E3. induction (ord n) as [|i l IH]; [reflexivity|]. rewrite filter_cons.
    change ((i :: l) ≫= vals_at (u_values u)) with (vals_at (u_values u) i ++ (l ≫= vals_at (u_values u))).
    pose proof (ur_occ _ _ _ _ R i) as Ho. destruct (Hoc i ltac:(left)) as [b Hb]. rewrite Hb in Ho. unfold vals_at at 1. destruct (u_values u !! i) as [o|] eqn:Ev; [|discriminate].
    cbn in Ho. injection Ho as ->. destruct o as [v|]; cbn [is_some] in Hb.
    - rewrite decide_True by exact Hb. rewrite fmap_cons. cbn [mapM]. rewrite Nat2Z.id, Ev. cbn. rewrite IH; [reflexivity| |]; intros j Hj; [apply Hin|apply Hoc]; right; exact Hj.
    - rewrite decide_False by congruence. cbn. apply IH; intros j Hj; [apply Hin|apply Hoc]; right; exact Hj.
  Qed.

  (** *** valid *)
  Lemma for_all_true (m : nat) f : (forall i, (i < m)%nat -> f (Z.of_nat i) = Ret true) -> for_all (Z.of_nat m) f = Ret true.
  Proof.
    intros H. unfold for_all. rewrite Nat2Z.id. assert (Hs : forall i, i ∈ seq 0 m -> f (Z.of_nat i) = Ret true) by (intros i Hi; apply elem_of_seq in Hi; apply H; lia).
    induction (seq 0 m) as [|i l IH]; [reflexivity|]. cbn [fold_left obind]. rewrite Hs by left. cbn [obind andb]. apply IH. intros j Hj. apply Hs. right. exact Hj.
  Qed.

  Definition flags_are (D : list nat) (flags : list Z) : Prop := length flags = n /\ forall q, (q < n)%nat -> flags !! q = Some (Z.b2z (bool_decide (q ∈ D))).
  Lemma flag_add D flags q : flags_are D flags -> (q < n)%nat -> q ∉ D -> zat flags (Z.of_nat q) = Ret 0 /\ flags_are (q :: D) (<[q := 0 + 1]> flags).
  Proof using All.
    intros [F1 F2] Hq Hn. split.
    - rewrite (zat_nat _ _ _ (F2 q Hq)). rewrite bool_decide_eq_false_2 by exact Hn. reflexivity.
    - split; [rewrite insert_length; exact F1|]. intros r Hr. destruct (decide (r = q)) as [-> |Hne].
      + rewrite list_lookup_insert by lia. rewrite bool_decide_eq_true_2 by left. reflexivity.
      + rewrite list_lookup_insert_ne by congruence. rewrite F2 by exact Hr. f_equal. f_equal. apply bool_decide_ext. rewrite elem_of_cons. tauto.
  Qed.
  Lemma visit_walk fuel u p P : linked (u_off u) p P -> (length P < fuel)%nat -> NoDup P -> forall D flags, flags_are D flags ->
    (forall q, q ∈ P -> (q < n)%nat /\ q ∉ D) -> exists flags', visit_loop fuel u (Z.of_nat p) flags = Ret flags' /\ flags_are (rev P ++ D) flags'.
  Proof using All.
    revert fuel p. induction P as [|q P IH]; intros fuel p HL Hf ND D flags HF HP; (destruct fuel as [|fuel]; [cbn in Hf; lia|]); cbn [visit_loop linked] in *.
    - rewrite (zat_nat _ _ _ HL). cbn. eauto.
    - destruct HL as (H1 & H2 & H3). rewrite (zat_nat _ _ _ H2). cbn [obind]. rewrite (proj2 (Z.eqb_neq _ _)) by lia.
      replace (Z.of_nat p + (Z.of_nat q - Z.of_nat p)) with (Z.of_nat q) by lia. apply NoDup_cons in ND as [N1 N2].
      destruct (HP q ltac:(left)) as [Hq1 Hq2]. destruct (flag_add D flags q HF Hq1 Hq2) as [Hz HF']. rewrite Hz. cbn [obind]. rewrite Nat2Z.id.
      change (1 <? 0 + 1) with false. cbn match.
      destruct (IH fuel q H3 ltac:(cbn in Hf; lia) N2 (q :: D) _ HF') as (f' & E1 & E2).
      { intros r Hr. destruct (HP r ltac:(right; exact Hr)) as [A1 A2]. split; [exact A1|]. intros Hc. apply elem_of_cons in Hc as [-> |Hc]; contradiction. }
      exists f'. split; [exact E1|]. cbn [rev]. rewrite <- app_assoc. exact E2.
  Qed.
  Lemma visits_fold L u G st (l : list nat) : urep L u G st -> NoDup l -> (forall b, b ∈ l -> (b < bc)%nat) -> forall D flags, flags_are D flags ->
    (forall b g q, b ∈ l -> G !! b = Some g -> q ∈ b :: gpos g -> q ∉ D) ->
    exists D' flags', fold_left (fun acc i => let! s := acc in count_visits u i s) l (Ret flags) = Ret flags' /\ flags_are D' flags'.
  Proof using All.
    intros R. induction l as [|b l IH]; intros ND Hl D flags HF HD; [cbn; eauto|]. cbn [fold_left obind].
    apply NoDup_cons in ND as [N1 N2]. destruct (bucket_exists _ _ _ _ R b (Hl b ltac:(left))) as [g Hg].
    unfold count_visits at 2. pose proof (Hl b ltac:(left)) as Hb. pose proof (chain_nodup _ _ _ _ R _ _ Hg) as NDc. apply NoDup_cons in NDc as [C1 C2].
    destruct (flag_add D flags b HF ltac:(lia)) as [Hz HF']; [apply (HD b g b); [left|exact Hg|left]|]. rewrite Hz. cbn [obind].
    destruct (visit_walk (walk_fuel u) u b (gpos g) (ur_link _ _ _ _ R _ _ Hg)) with (D := b :: D) (flags := <[b := 0 + 1]> flags) as (f' & E1 & E2); auto.
    { pose proof (chain_length _ _ _ _ R _ _ Hg). unfold gpos. rewrite fmap_length. assumption. }
    { intros q Hq. split; [pose proof (chain_range _ _ _ _ R _ _ _ Hg Hq); lia|]. intros Hc. apply elem_of_cons in Hc as [-> |Hc]; [contradiction|].
      apply (HD b g q); [left|exact Hg|right; exact Hq|exact Hc]. }
    rewrite E1. apply (IH N2 ltac:(intros x Hx; apply Hl; right; exact Hx) _ _ E2).
    intros b' g' q Hb' Hg' Hq Hc. assert (Hne : b <> b') by (intros ->; contradiction).
    apply elem_of_app in Hc as [Hc|Hc].
    - apply elem_of_list_In, in_rev, elem_of_list_In in Hc. eapply (node_notin _ _ _ _ R b b' g' q); eauto. exists g. split; [exact Hg|right; exact Hc].
    - apply elem_of_cons in Hc as [-> |Hc].
      + eapply (node_notin _ _ _ _ R b b' g' b); eauto. exists g. split; [exact Hg|left].
      + apply (HD b' g' q); [right; exact Hb'|exact Hg'|exact Hq|exact Hc].
  Qed.

  (** every stored value is in the bucket of its key *)
  Lemma stored_in_bucket L u G st p v : urep L u G st -> u_values u !! p = Some (Some v) ->
    exists g, G !! bkt (kf v) = Some g /\ ((p = bkt (kf v) /\ g.1 = Some v) \/ (p, v) ∈ g.2).
  Proof using All.
    intros R Hv. pose proof (lookup_lt_Some _ _ _ Hv) as Hlt. rewrite (ur_lv _ _ _ _ R) in Hlt. destruct (decide (p < bc)%nat) as [Hp|Hp].
    - destruct (bucket_exists _ _ _ _ R p Hp) as [g Hg]. pose proof (ur_head _ _ _ _ R _ _ Hg) as Hh. rewrite Hv in Hh. injection Hh as Hh.
      assert (Eb : bkt (kf v) = p) by (apply (ur_bkt _ _ _ _ R _ _ v Hg); unfold gvals; rewrite <- Hh; left). exists g. rewrite Eb. auto.
    - assert (Hs : p ∈ (G ≫= gpos) ++ st) by (rewrite (ur_perm _ _ _ _ R); apply elem_of_seq; lia).
      apply elem_of_app in Hs as [Hs|Hs]; [|rewrite (ur_free _ _ _ _ R _ Hs) in Hv; discriminate].
      apply elem_of_list_bind in Hs as (g & Hpg & Hg). apply elem_of_list_lookup in Hg as [b Hg]. unfold gpos in Hpg. apply elem_of_list_fmap in Hpg as ([q w] & -> & Hq). cbn [fst] in *.
      pose proof (ur_chain _ _ _ _ R _ _ _ _ Hg Hq) as Hw. rewrite Hv in Hw. injection Hw as <-.
      assert (Eb : bkt (kf v) = b) by (apply (ur_bkt _ _ _ _ R _ _ v Hg); unfold gvals; apply elem_of_app; right; apply elem_of_list_fmap; exists (q, v); auto).
      exists g. rewrite Eb. auto.
  Qed.
  Lemma stored_found L u G st p v : urep L u G st -> u_values u !! p = Some (Some v) -> gin (kf v) G = Some p.
  Proof using All.
    intros R Hv. destruct (stored_in_bucket _ _ _ _ _ _ R Hv) as (g & Hg & Hin). unfold gin. rewrite Hg. cbn. unfold gfind.
    pose proof (ur_kd _ _ _ _ R _ _ Hg) as Hkd. unfold gvals in Hkd. destruct Hin as [[-> Eh] |Hin].
    - rewrite Eh, keq_refl. reflexivity.
    - assert (Hmatch : kd g.2.*2 -> first_match kf keq (kf v) g.2 = Some p).
      { clear - Hin keq_refl keq_sym. unfold first_match. induction (g.2) as [|[q w] es IH]; [inversion Hin|]. cbn [kd fmap list_fmap snd find].
        intros [K1 K2]. apply elem_of_cons in Hin as [[= -> ->] |Hin]; [rewrite keq_refl; reflexivity|].
        rewrite (K1 v) by (apply elem_of_list_fmap; exists (p, v); auto). apply IH; assumption. }
      destruct (g.1) as [w|] eqn:Eh; cbn [olist app] in Hkd.
      + apply kd_cons in Hkd as [K1 K2]. rewrite keq_sym_eq. rewrite K1 by (apply elem_of_list_fmap; exists (p, v); auto). apply Hmatch. apply kd_iff. exact K2.
      + apply Hmatch. apply kd_iff. exact Hkd.
  Qed.
  Lemma find_gin L u G st k : urep L u G st -> u_find kf hash keq u k = Ret (default (Z.of_nat n) (Z.of_nat <$> gin k G)).
  Proof using All.
    intros R. destruct (bkt_spec k) as [_ Hb]. destruct (bucket_exists _ _ _ _ R _ Hb) as [g Hg]. rewrite (find_rep _ _ _ _ R _ _ Hg). unfold gin. rewrite Hg. reflexivity.
  Qed.
  Lemma contains_gin L u G st k : urep L u G st -> u_contains kf hash keq u k = Ret (is_some (gin k G)).
  Proof using All.
    intros R. destruct (bkt_spec k) as [_ Hb]. destruct (bucket_exists _ _ _ _ R _ Hb) as [g Hg]. rewrite (contains_rep _ _ _ _ R _ _ Hg). unfold gin. rewrite Hg. reflexivity.
  Qed.

  Lemma occ_list L u G st : urep L u G st -> u_occ u = is_some <$> u_values u.
  Proof using All. intros R. apply list_eq. intros i. rewrite (ur_occ _ _ _ _ R), list_lookup_fmap. reflexivity. Qed.
  Lemma occ_count L u G st : urep L u G st -> bcount (u_occ u) = Z.of_nat (length (G ≫= gvals)).
  Proof using All.
    intros R. rewrite (occ_list _ _ _ _ R). rewrite <- (Permutation_length (content_perm _ _ _ _ R)). unfold bcount. f_equal. clear.
    induction (u_values u) as [|o vs IH]; [reflexivity|]. rewrite fmap_cons, filter_cons. change ((o :: vs) ≫= olist) with (olist o ++ (vs ≫= olist)). rewrite app_length, <- IH.
    destruct o; cbn [is_some olist length]; [rewrite decide_True by reflexivity|rewrite decide_False by discriminate]; reflexivity.
  Qed.

  Lemma valid_rep u G st : urep L0 u G st -> u_valid kf hash keq ord u = Ret true.
  Proof using All.
    intros R. unfold u_valid. rewrite (total_count_rep _ _ _ _ R). rewrite (proj2 (Z.eqb_neq _ _)) by lia.
    rewrite (for_all_true n).
    2: { intros i Hi. unfold offset_inside_range. assert (exists o, u_off u !! i = Some o) as [o Ho] by (apply lookup_lt_is_Some_2; rewrite (ur_lf _ _ _ _ R); exact Hi).
      rewrite (zat_nat _ _ _ Ho). cbn [obind]. rewrite (total_count_rep _ _ _ _ R). pose proof (ur_off _ _ _ _ R _ _ Ho).
      rewrite (proj2 (Z.ltb_ge _ _)) by lia. rewrite (proj2 (Z.leb_gt _ _)) by lia. reflexivity. }
    cbn [oand obind]. unfold loop_free, u_for_each. rewrite (total_count_rep _ _ _ _ R), (ur_bc _ _ _ _ R), !Nat2Z.id.
    destruct (visits_fold _ _ _ _ (ord bc) R) with (D := @nil nat) (flags := replicate n 0) as (D' & f' & E1 & E2).
    { rewrite (Hord bc). apply NoDup_seq. }
    { intros b Hb. rewrite (Hord bc) in Hb. apply elem_of_seq in Hb. lia. }
    { split; [apply replicate_length|]. intros q Hq. rewrite lookup_replicate_2 by exact Hq. rewrite bool_decide_eq_false_2 by (intros H; inversion H). reflexivity. }
    { intros b g q _ _ _ H. inversion H. }
    rewrite E1. cbn [obind]. rewrite (for_all_true n).
    2: { intros i Hi. destruct E2 as [_ E2]. rewrite (zat_nat _ _ _ (E2 i Hi)). cbn [obind]. destruct (bool_decide _); reflexivity. }
    cbn [oand obind]. rewrite (for_all_true n).
    2: { intros i Hi. unfold value_reachable. assert (exists o, u_values u !! i = Some o) as [o Ho] by (apply lookup_lt_is_Some_2; rewrite (ur_lv _ _ _ _ R); exact Hi).
      rewrite (u_occupied_nat _ i (is_some o)) by (rewrite (ur_occ _ _ _ _ R), Ho; reflexivity). cbn [obind]. destruct o as [v|]; [|reflexivity]. cbn [is_some].
      rewrite (u_value_nat _ _ _ Ho). cbn [obind]. rewrite (contains_gin _ _ _ _ _ R), (stored_found _ _ _ _ _ _ R Ho). reflexivity. }
    cbn [oand obind]. rewrite (for_all_true n).
    2: { intros i Hi. unfold values_unique. assert (exists o, u_values u !! i = Some o) as [o Ho] by (apply lookup_lt_is_Some_2; rewrite (ur_lv _ _ _ _ R); exact Hi).
      rewrite (u_occupied_nat _ i (is_some o)) by (rewrite (ur_occ _ _ _ _ R), Ho; reflexivity). cbn [obind]. destruct o as [v|]; [|reflexivity]. cbn [is_some].
      rewrite (u_value_nat _ _ _ Ho). cbn [obind]. rewrite (find_gin _ _ _ _ _ R), (stored_found _ _ _ _ _ _ R Ho).
      change (Ret (Z.of_nat i =? Z.of_nat i) = Ret true). rewrite Z.eqb_refl. reflexivity. }
    cbn [oand obind]. unfold u_occupied_count_valid. destruct (size_rep _ _ _ _ R) as [Es _]. rewrite Es. cbn [obind]. rewrite (occ_count _ _ _ _ R), Z.eqb_refl. cbn [obind].
    rewrite (ur_lk _ _ _ _ R), bcount_replicate_false. change (Ret (v_valid (u_excess u)) = Ret true). f_equal. apply (rep_valid true ord Hord E ltac:(lia) (u_excess u) _ (ur_ex _ _ _ _ R)).
  Qed.

  (** *** clear *)
  Notation G0 := (replicate bc (@None V, @nil (nat * V))).
  Lemma G0_content : G0 ≫= gvals = [].
  Proof. generalize bc; intros m; induction m as [|m IH]; [reflexivity|]. cbn [replicate]. change (gvals (@None V, @nil (nat * V)) ++ (replicate m (@None V, @nil (nat * V)) ≫= gvals) = []). rewrite IH. reflexivity. Qed.
  Lemma G0_pos : G0 ≫= gpos = [].
  Proof. generalize bc; intros m; induction m as [|m IH]; [reflexivity|]. cbn [replicate]. change (gpos (@None V, @nil (nat * V)) ++ (replicate m (@None V, @nil (nat * V)) ≫= gpos) = []). rewrite IH. reflexivity. Qed.

  Lemma iota_fold (value : Z) (l : list nat) : forall d : list (option Z), (forall i, i ∈ l -> (i < length d)%nat) ->
    exists d', fold_left (fun acc i => let! d := acc in match d !! i with Some _ => Ret (<[i := Some (value + Z.of_nat i)]> d) | None => UB end) l (Ret d) = Ret d' /\
      length d' = length d /\ forall i, d' !! i = if decide (i ∈ l) then Some (Some (value + Z.of_nat i)) else d !! i.
  Proof.
    induction l as [|j l IH]; intros d Hl.
    - exists d. split; [reflexivity|]. split; [reflexivity|]. intros i. rewrite decide_False by (intros H; inversion H). reflexivity.
    - cbn [fold_left obind]. assert (Hj : (j < length d)%nat) by (apply Hl; left). destruct (lookup_lt_is_Some_2 d j Hj) as [x Hx]. rewrite Hx.
      destruct (IH (<[j := Some (value + Z.of_nat j)]> d)) as (d' & E1 & E2 & E3).
      { intros i Hi. rewrite insert_length. apply Hl. right. exact Hi. }
      exists d'. split; [exact E1|]. rewrite insert_length in E2. split; [exact E2|]. intros i. rewrite E3. destruct (decide (i ∈ l)) as [H|H].
      + rewrite decide_True by (right; exact H). reflexivity.
      + destruct (decide (i = j)) as [-> |Hne].
        * rewrite decide_True by left. apply list_lookup_insert. exact Hj.
        * rewrite decide_False by (rewrite elem_of_cons; tauto). apply list_lookup_insert_ne. congruence.
  Qed.
  Lemma clear_iota_rep (e : vec Z) : length (v_data e) = E -> length (v_occ e) = E -> v_locks e = replicate E false ->
    exists e', v_clear_iota ord e (Z.of_nat bc) = Ret e' /\ vrep true E e' (Z.of_nat <$> seq bc E).
  Proof using All.
    intros H1 H2 H3. unfold v_clear_iota, u_for_each. rewrite H1.
    destruct (iota_fold (Z.of_nat bc) (ord E) (v_data e)) as (d' & E1 & E2 & E3).
    { intros i Hi. rewrite (Hord E) in Hi. apply elem_of_seq in Hi. lia. }
    rewrite E1. cbn [obind]. eexists. split; [reflexivity|].
    split; cbn [v_n v_data v_occ v_locks v_ev]; rewrite ?fmap_length, ?seq_length, ?replicate_length; auto; try lia; try discriminate.
    - unfold v_capacity. rewrite H2. reflexivity.
    - intros p Hp. rewrite E3. rewrite decide_True by (rewrite (Hord E); apply elem_of_seq; lia). rewrite list_lookup_fmap, lookup_seq_lt by exact Hp. cbn. do 2 f_equal. lia.
    - intros p Hp. rewrite H2, lookup_replicate_2 by exact Hp. rewrite bool_decide_eq_true_2 by exact Hp. reflexivity.
  Qed.

  Lemma destroy_fold (l : list nat) : NoDup l -> forall u, (forall i, i ∈ l -> (i < length (u_values u))%nat) -> (forall p, p ∈ l -> u_occ u !! p = is_some <$> u_values u !! p) ->
    exists u', fold_left (fun acc i => let! s := acc in destroy_value i s) l (Ret u) = Ret u' /\
      u_bc u' = u_bc u /\ u_off u' = u_off u /\ u_occ u' = u_occ u /\ u_locks u' = u_locks u /\ u_count u' = u_count u /\ u_excess u' = u_excess u /\ u_indices u' = u_indices u /\
      length (u_values u') = length (u_values u) /\
      (forall p, (p < length (u_values u))%nat -> u_values u' !! p = if decide (p ∈ l) then Some None else u_values u !! p) /\
      u_ev u' = u_ev u ++ ((fun i => EvDestroy (InSlot i)) <$> filter (fun i => u_occ u !! i = Some true) l).
  Proof using All.
    induction l as [|i l IH]; intros ND u Hl Ho.
    - exists u. cbn. rewrite app_nil_r. repeat (split; [reflexivity|]). reflexivity.
    - apply NoDup_cons in ND as [N1 N2]. cbn [fold_left obind]. pose proof (Hl i ltac:(left)) as Hi. destruct (lookup_lt_is_Some_2 _ _ Hi) as [o Hv].
      pose proof (Ho i ltac:(left)) as Hoi. rewrite Hv in Hoi. cbn in Hoi. unfold destroy_value at 2. rewrite (u_occupied_nat _ _ _ Hoi). cbn [obind]. rewrite filter_cons.
      destruct o as [v|]; cbn [is_some] in *.
      + rewrite decide_True by exact Hoi. unfold u_destroy. rewrite (proj2 (Z.leb_le _ _)) by lia. rewrite Nat2Z.id, Hv.
        set (u1 := {| u_bc := u_bc u; u_values := <[i:=None]> (u_values u); u_off := u_off u; u_occ := u_occ u; u_locks := u_locks u; u_count := u_count u;
                      u_excess := u_excess u; u_indices := u_indices u; u_ev := u_ev u ++ [EvDestroy (InSlot i)] |}).
        destruct (IH N2 u1) as (u' & F1 & F2 & F3 & F4 & F5 & F6 & F7 & F8 & F9 & F10 & F11).
        { intros j Hj. cbn [u1 u_values]. rewrite insert_length. apply Hl. right. exact Hj. }
        { intros p Hp. cbn [u1 u_values u_occ]. rewrite list_lookup_insert_ne by (intros ->; contradiction). apply Ho. right. exact Hp. }
        exists u'. split; [exact F1|]. cbn [u1 u_bc u_values u_off u_occ u_locks u_count u_excess u_indices u_ev] in *. rewrite insert_length in *.
        repeat (split; [assumption|]). split.
        * intros p Hp. rewrite F10 by exact Hp. destruct (decide (p ∈ l)) as [H|H]; [rewrite decide_True by (right; exact H); reflexivity|].
          destruct (decide (p = i)) as [-> |Hne]; [rewrite decide_True by left; apply list_lookup_insert; exact Hi|].
          rewrite decide_False by (rewrite elem_of_cons; tauto). apply list_lookup_insert_ne. congruence.
        * rewrite F11. rewrite <- app_assoc. reflexivity.
      + rewrite decide_False by congruence. destruct (IH N2 u) as (u' & F1 & F2 & F3 & F4 & F5 & F6 & F7 & F8 & F9 & F10 & F11).
        { intros j Hj. apply Hl. right. exact Hj. }
        { intros p Hp. apply Ho. right. exact Hp. }
        exists u'. split; [exact F1|]. repeat (split; [assumption|]). split; [|exact F11].
        intros p Hp. rewrite F10 by exact Hp. destruct (decide (p ∈ l)) as [H|H]; [rewrite decide_True by (right; exact H); reflexivity|].
        destruct (decide (p = i)) as [-> |Hne]; [rewrite decide_True by left; exact Hv|]. rewrite decide_False by (rewrite elem_of_cons; tauto). reflexivity.
  Qed.

  Lemma fresh_rep u : u_bc u = Z.of_nat bc -> u_values u = replicate n None -> u_off u = replicate n 0 -> u_occ u = replicate n false ->
    length (u_indices u) = n -> u_locks u = L0 -> u_count u = 0 -> vrep true E (u_excess u) (Z.of_nat <$> seq bc E) ->
    (opt = false -> lifetime_ok nothing (u_ev u) /\ forall p, live_after nothing (u_ev u) (InSlot p) = false) ->
    urep L0 u G0 (seq bc E).
  Proof using All.
    intros H1 H2 H3 H4 H5 H6 H7 H8 H9.
    assert (HG : forall b (g : option V * list (nat * V)), G0 !! b = Some g -> g = (None, []) /\ (b < bc)%nat).
    { intros b g H. apply lookup_replicate in H. tauto. }
    split; rewrite ?H2, ?H3, ?H4, ?H7, ?replicate_length; auto.
    - rewrite G0_pos. reflexivity.
    - intros b g H. destruct (HG _ _ H) as [-> Hb]. apply lookup_replicate_2. lia.
    - intros b g H. destruct (HG _ _ H) as [-> Hb]. cbn. apply lookup_replicate_2. lia.
    - intros b g p v H Hp. destruct (HG _ _ H) as [-> Hb]. inversion Hp.
    - intros p Hp. apply elem_of_seq in Hp. apply lookup_replicate_2. lia.
    - intros p. destruct (decide (p < n)%nat); [rewrite !lookup_replicate_2 by assumption; reflexivity|]. rewrite !lookup_ge_None_2; [reflexivity| |]; rewrite replicate_length; lia.
    - intros p o Hp. apply lookup_replicate in Hp as [-> Hp]. lia.
    - rewrite G0_content. reflexivity.
    - intros b g v H Hv. destruct (HG _ _ H) as [-> Hb]. inversion Hv.
    - intros b g H. destruct (HG _ _ H) as [-> Hb]. intros i j v w Hi. destruct i; discriminate.
    - intros Ho. destruct (H9 Ho) as [A B]. split; [exact A|]. intros p. rewrite B. destruct (replicate n None !! p) as [o|] eqn:Eo; [|reflexivity]. apply lookup_replicate in Eo as [-> _]. reflexivity.
  Qed.

  Lemma create_rep junk : exists u, unordered_create (V:=V) ord junk (Z.of_nat bc) (Z.of_nat E) = Ret u /\ urep L0 u G0 (seq bc E) /\ u_ev u = [].
  Proof using All.
    unfold unordered_create. rewrite (proj2 (Z.leb_le _ _)) by lia. rewrite (proj2 (Z.ltb_lt _ _)) by lia.
    destruct (rep_create (T:=Z) true ord Hord E ltac:(lia) ltac:(lia)) as (e & Ee & Re). rewrite Ee. cbn [obind].
    destruct (clear_iota_rep e (r_ld _ _ _ _ Re) (r_lo _ _ _ _ Re) (r_locks _ _ _ _ Re)) as (e' & Ee' & Re'). rewrite Ee'. cbn [obind].
    assert (Hfull : v_full e' = true).
    { unfold v_full. rewrite (rep_size true ord Hord E _ _ Re'), (rep_cap true E _ _ Re'). rewrite fmap_length, seq_length. apply Z.eqb_refl. }
    rewrite Hfull. eexists. split; [reflexivity|]. split; [|reflexivity]. replace (Z.to_nat (Z.of_nat bc + Z.of_nat E)) with n by lia.
    apply fresh_rep; cbn; auto.
    rewrite take_length, app_length, replicate_length. lia.
  Qed.

  Lemma clear_rep u G st : urep L0 u G st ->
    exists u' st', u_clear opt ord u = Ret u' /\ urep L0 u' G0 st' /\ length st' = E /\
      (G ≫= gvals <> [] -> st' = seq bc E) /\
      (opt = false -> u_ev u' = u_ev u ++ ((fun i => EvDestroy (InSlot i)) <$> filter (fun i => u_occ u !! i = Some true) (ord n))).
  Proof using All.
    intros R. unfold u_clear, u_empty. destruct (size_rep _ _ _ _ R) as [Es _]. rewrite Es. cbn [obind].
    destruct (Z.eqb_spec (Z.of_nat (length (G ≫= gvals))) 0) as [E0|E0].
    - assert (Ec : G ≫= gvals = []) by (apply nil_length_inv; lia).
      assert (EG : G = G0).
      { rewrite <- (ur_lg _ _ _ _ R). clear - Ec. induction G as [|[h es] G IH]; [reflexivity|]. change (gvals (h, es) ++ (G ≫= gvals) = []) in Ec. apply app_eq_nil in Ec as [E1 E2].
        cbn [length replicate]. rewrite <- IH by exact E2. unfold gvals in E1. apply app_eq_nil in E1 as [E1 E3]. destruct h; [discriminate|]. cbn [snd] in E3. apply fmap_nil_inv in E3. rewrite E3. reflexivity. }
      exists u, st. split; [reflexivity|]. rewrite <- EG. split; [exact R|]. split.
      { destruct (content_le _ _ _ _ R) as [_ H]. rewrite EG, G0_pos in H. cbn in H. exact H. }
      split; [intros H; contradiction|]. intros _.
      assert (Hf : filter (fun i => u_occ u !! i = Some true) (ord n) = []).
      { destruct (filter (fun i => u_occ u !! i = Some true) (ord n)) as [|i l] eqn:Ef; [reflexivity|exfalso].
        assert (Hi : i ∈ filter (fun i => u_occ u !! i = Some true) (ord n)) by (rewrite Ef; left). apply elem_of_list_filter in Hi as [Hi _]. pose proof (ur_occ _ _ _ _ R i) as Ho. rewrite Hi in Ho.
        destruct (u_values u !! i) as [[v|]|] eqn:Ev; try discriminate. destruct (stored_in_bucket _ _ _ _ _ _ R Ev) as (g & Hg & Hc).
        assert (Hv : v ∈ G ≫= gvals). { apply elem_of_list_bind. exists g. split; [|apply elem_of_list_lookup; eauto]. unfold gvals. destruct Hc as [[_ Hc] |Hc]; [rewrite Hc; left|]. apply elem_of_app. right. apply elem_of_list_fmap. exists (i, v). auto. }
        rewrite Ec in Hv. inversion Hv. }
      rewrite Hf. cbn. rewrite app_nil_r. reflexivity.
    - assert (Hd : exists u1, (if opt then Ret (u_forget u) else u_for_each ord (Z.to_nat (total_count u)) destroy_value u) = Ret u1 /\
          u_bc u1 = u_bc u /\ u_values u1 = replicate n None /\ length (u_off u1) = n /\ length (u_occ u1) = n /\ u_locks u1 = L0 /\ u_excess u1 = u_excess u /\ length (u_indices u1) = n /\
          (opt = false -> u_ev u1 = u_ev u ++ ((fun i => EvDestroy (InSlot i)) <$> filter (fun i => u_occ u !! i = Some true) (ord n)))).
      { rewrite (total_count_rep _ _ _ _ R), Nat2Z.id. destruct (Bool.bool_dec opt true) as [Eo|Eo]; [|apply not_true_is_false in Eo]; rewrite Eo.
        - exists (u_forget u). cbn [u_forget u_bc u_values u_off u_occ u_locks u_excess u_indices u_ev]. rewrite (ur_lv _ _ _ _ R). repeat (split; [first [reflexivity|apply R]|]). discriminate.
        - unfold u_for_each. destruct (destroy_fold (ord n)) with (u := u) as (u1 & F1 & F2 & F3 & F4 & F5 & F6 & F7 & F8 & F9 & F10 & F11).
          { rewrite (Hord n). apply NoDup_seq. }
          { intros i Hi. rewrite (Hord n) in Hi. apply elem_of_seq in Hi. rewrite (ur_lv _ _ _ _ R). lia. }
          { intros p _. apply R. }
          exists u1. split; [exact F1|]. split; [exact F2|]. rewrite (ur_lv _ _ _ _ R) in *. split.
          { apply list_eq. intros i. destruct (decide (i < n)%nat) as [Hi|Hi].
            - rewrite F10 by exact Hi. rewrite decide_True by (rewrite (Hord n); apply elem_of_seq; lia). rewrite lookup_replicate_2 by exact Hi. reflexivity.
            - rewrite !lookup_ge_None_2; [reflexivity|rewrite replicate_length; lia|lia]. }
          rewrite F3, F4, F5, F7, F8. repeat (split; [first [reflexivity|apply R]|]). auto. }
      destruct Hd as (u1 & -> & D1 & D2 & D3 & D4 & D5 & D6 & D7 & D8). cbn [obind]. rewrite D6, D1, (ur_bc _ _ _ _ R).
      pose proof (ur_ex _ _ _ _ R) as Rex. destruct (clear_iota_rep (u_excess u) (r_ld _ _ _ _ Rex) (r_lo _ _ _ _ Rex) (r_locks _ _ _ _ Rex)) as (e' & Ee' & Re'). rewrite Ee'. cbn [obind].
      eexists _, (seq bc E). split; [reflexivity|]. split; [|split; [apply seq_length|split; [auto|exact D8]]].
      apply fresh_rep; cbn [u_bc u_values u_off u_occ u_locks u_count u_excess u_indices u_ev]; auto; try congruence.
      intros Ho. rewrite (D8 Ho). destruct (ur_life _ _ _ _ R Ho) as [L1 L2].
      assert (Hgen : forall (l : list nat) (live : place -> bool), NoDup l -> (forall p, p ∈ l -> live (InSlot p) = true) ->
         lifetime_ok live ((fun i => EvDestroy (InSlot i)) <$> l) /\ forall p, live_after live ((fun i => EvDestroy (InSlot i)) <$> l) (InSlot p) = if decide (p ∈ l) then false else live (InSlot p)).
      { clear. induction l as [|i l IH]; intros live ND Hl.
        - split; [exact I|]. intros p. rewrite decide_False by (intros H; inversion H). reflexivity.
        - apply NoDup_cons in ND as [N1 N2]. rewrite fmap_cons. cbn [lifetime_ok live_after].
          destruct (IH (fun q => if decide (q = InSlot i) then false else live q) N2) as [I1 I2].
          { intros p Hp. cbn beta. rewrite decide_False by (intros [= ->]; contradiction). apply Hl. right. exact Hp. }
          split; [split; [apply Hl; left|exact I1]|]. intros p. rewrite I2. destruct (decide (p ∈ l)) as [H|H]; [rewrite decide_True by (right; exact H); reflexivity|].
          destruct (decide (InSlot p = InSlot i)) as [[= ->] |Hne]; [rewrite decide_True by left; reflexivity|]. rewrite decide_False; [reflexivity|]. rewrite elem_of_cons. intros [-> |]; contradiction. }
      destruct (Hgen (filter (fun i => u_occ u !! i = Some true) (ord n)) (live_after nothing (u_ev u))) as [G1 G2].
      { apply NoDup_filter. rewrite (Hord n). apply NoDup_seq. }
      { intros p Hp. apply elem_of_list_filter in Hp as [Hp _]. rewrite L2. pose proof (ur_occ _ _ _ _ R p) as Hoc. rewrite Hp in Hoc. destruct (u_values u !! p) as [[v|]|]; try discriminate. reflexivity. }
      split; [apply lifetime_ok_app; auto|]. intros p. rewrite live_after_app, G2. destruct (decide (p ∈ filter (fun i => u_occ u !! i = Some true) (ord n))) as [H|H]; [reflexivity|].
      rewrite L2. destruct (u_values u !! p) as [[v|]|] eqn:Ev; try reflexivity. exfalso. apply H. apply elem_of_list_filter. split.
      + rewrite (ur_occ _ _ _ _ R), Ev. reflexivity.
      + rewrite (Hord n). apply elem_of_seq. apply lookup_lt_Some in Ev. rewrite (ur_lv _ _ _ _ R) in Ev. lia.
  Qed.

  (** *** the abstract bucket machine: per bucket the head value and the chain values *)
  Definition absg (g : option V * list (nat * V)) : option V * list V := (g.1, g.2.*2).
  Definition acontent (A : list (option V * list V)) : list V := A ≫= (fun a => olist a.1 ++ a.2).
  Definition afind (k : K) (A : list (option V * list V)) : option V := a ← A !! bkt k; find (fun v => keq (kf v) k) (olist a.1 ++ a.2).
  Definition ainsert (A : list (option V * list V)) (v : V) : list (option V * list V) * bool :=
    match afind (kf v) A with
    | Some _ => (A, false)
    | None =>
      if bool_decide (length (acontent A) = n) || bool_decide (length (A ≫= snd) = E) then (A, false)
      else match A !! bkt (kf v) with
           | Some (None, vs) => (<[bkt (kf v) := (Some v, vs)]> A, true)
           | Some (Some h, vs) => (<[bkt (kf v) := (Some h, vs ++ [v])]> A, true)
           | None => (A, false)
           end
    end.
  Fixpoint rm (k : K) (vs : list V) : list V := match vs with [] => [] | v :: vs => if keq (kf v) k then vs else v :: rm k vs end.
  Definition aerase (A : list (option V * list V)) (k : K) : list (option V * list V) * Z :=
    match afind k A with
    | None => (A, 0)
    | Some _ => match A !! bkt k with
                | Some (h, vs) => (<[bkt k := if match h with Some w => keq (kf w) k | None => false end then (None, vs) else (h, rm k vs)]> A, 1)
                | None => (A, 0)
                end
    end.
  Definition astep (A : list (option V * list V)) (op : uop K V) : list (option V * list V) * ures V :=
    match op with
    | UInsert v => let '(A', ok) := ainsert A v in (A', UIns ok (if ok then Some v else None))
    | UErase k => let '(A', m) := aerase A k in (A', UNum m)
    | UFind k => (A, UFound (afind k A))
    | UContains k => (A, UBool (is_some (afind k A)))
    | UCount k => (A, UNum (if is_some (afind k A) then 1 else 0))
    | UClear => (replicate bc (None, []), UUnit)
    | USize => (A, UNum (Z.of_nat (length (acontent A))))
    | UEmpty => (A, UBool (Z.of_nat (length (acontent A)) =? 0))
    | UFull => (A, UBool (bool_decide (length (acontent A) = n)))
    | UMaxSize => (A, UNum (Z.of_nat n))
    | UBucketSize m => (A, UNum (match A !! Z.to_nat m with Some a => Z.of_nat (length (olist a.1 ++ a.2)) | None => 0 end))
    | URange => (A, UList (acontent A))
    | UValid => (A, UBool true)
    | UInsertRange vs => (fold_left (fun A v => (ainsert A v).1) (omap (vs !!.) (ord (length vs))) A, UUnit)
    | UEraseRange ks => (fold_left (fun A k => (aerase A k).1) (omap (ks !!.) (ord (length ks))) A, UUnit)
    end.

  Lemma acontent_abs G : acontent (absg <$> G) = G ≫= gvals.
  Proof. unfold acontent. rewrite list_fmap_bind. reflexivity. Qed.
  Lemma achain_abs L u G st : urep L u G st -> length ((absg <$> G) ≫= snd) = (E - length st)%nat /\ (length st <= E)%nat.
  Proof using All.
    intros R. destruct (content_le _ _ _ _ R) as [_ H]. split; [|lia]. assert (Hl : length ((absg <$> G) ≫= snd) = length (G ≫= gpos)); [|lia].
    rewrite list_fmap_bind. clear. induction G as [|g G IH]; [reflexivity|].
    change (length (g.2.*2 ++ (G ≫= snd ∘ absg)) = length (g.2.*1 ++ (G ≫= gpos))). rewrite !app_length, IH, !fmap_length. reflexivity.
  Qed.
  Lemma find_fmap_snd k (es : list (nat * V)) : find (fun v => keq (kf v) k) es.*2 = snd <$> find (fun e => keq (kf e.2) k) es.
  Proof. induction es as [|[q v] es IH]; [reflexivity|]. cbn [fmap list_fmap find snd]. destruct (keq (kf v) k); [reflexivity|exact IH]. Qed.
  Lemma gin_afind L u G st k : urep L u G st ->
    match gin k G with
    | Some p => exists v, afind k (absg <$> G) = Some v /\ u_values u !! p = Some (Some v) /\ (p < n)%nat /\ keq (kf v) k = true
    | None => afind k (absg <$> G) = None
    end.
  Proof using All.
    intros R. destruct (bkt_spec k) as [_ Hb]. destruct (bucket_exists _ _ _ _ R _ Hb) as [[h es] Hg]. unfold gin, afind. rewrite list_lookup_fmap, Hg. cbn [mbind option_bind fmap option_fmap option_map absg fst snd].
    unfold gfind, first_match. cbn [fst snd].
    assert (Hm : match fst <$> find (fun e : nat * V => keq (kf e.2) k) es with
      | Some p => exists v, find (fun v => keq (kf v) k) es.*2 = Some v /\ u_values u !! p = Some (Some v) /\ (p < n)%nat /\ keq (kf v) k = true
      | None => find (fun v => keq (kf v) k) es.*2 = None end).
    { rewrite find_fmap_snd. destruct (find (fun e : nat * V => keq (kf e.2) k) es) as [[p v]|] eqn:Ef; cbn; [|reflexivity].
      exists v. split; [reflexivity|]. apply find_some in Ef as [Hin Hk]. pose proof (ur_chain _ _ _ _ R _ _ p v Hg ltac:(apply elem_of_list_In; exact Hin)) as Hv.
      split; [exact Hv|]. split; [eapply stored_range; eauto|exact Hk]. }
    destruct h as [w|]; cbn [olist app find]; [|exact Hm]. destruct (keq (kf w) k) eqn:Ek; [|exact Hm].
    exists w. split; [reflexivity|]. split; [apply (ur_head _ _ _ _ R _ _ Hg)|]. split; [lia|exact Ek].
  Qed.
  Lemma holds_gin L u G st k : urep L u G st -> (holds kf keq (G ≫= gvals) k <-> gin k G <> None).
  Proof using All.
    intros R. split.
    - intros (v & Hv & Hk). apply elem_of_list_bind in Hv as (g & Hv & Hg). apply elem_of_list_lookup in Hg as [b Hg].
      pose proof (ur_bkt _ _ _ _ R _ _ _ Hg Hv) as Eb. rewrite (bkt_keq _ _ Hk) in Eb. unfold gin. rewrite Eb, Hg. cbn. intros Hn.
      pose proof (gfind_None _ _ _ Hn v Hv). congruence.
    - intros H. destruct (bkt_spec k) as [_ Hb]. destruct (bucket_exists _ _ _ _ R _ Hb) as [g Hg]. unfold gin in H. rewrite Hg in H. cbn in H.
      destruct (gfind k (bkt k) g) as [p|] eqn:Ef; [|contradiction]. destruct (gfind_stored _ _ _ _ R _ _ _ _ Hg Ef) as (v & _ & Hv & Hk). exists v. split; [|exact Hk].
      apply elem_of_list_bind. exists g. split; [exact Hv|]. apply elem_of_list_lookup. eauto.
  Qed.
  Lemma content_kd_of G : (forall b g v, G !! b = Some g -> v ∈ gvals g -> bkt (kf v) = b) -> (forall b g, G !! b = Some g -> keys_distinct kf keq (gvals g)) -> keys_distinct kf keq (G ≫= gvals).
  Proof using All.
    intros R1 R2. apply kd_iff. assert (Hb : forall i g, G !! i = Some g -> (forall v, v ∈ gvals g -> bkt (kf v) = (0 + i)%nat) /\ kd (gvals g)).
    { intros i g Hg. split; [intros v Hv; apply (R1 _ _ _ Hg Hv)|]. apply kd_iff. apply (R2 _ _ Hg). }
    clear R1 R2. revert Hb. generalize 0%nat as s. induction G as [|g G IH]; intros s Hb; [exact I|].
    change (kd (gvals g ++ (G ≫= gvals))).
    assert (Happ : forall M1 M2, kd M1 -> kd M2 -> (forall v w, v ∈ M1 -> w ∈ M2 -> keq (kf v) (kf w) = false) -> kd (M1 ++ M2)).
    { clear. induction M1 as [|v M1 IH]; intros M2 H1 H2 H12; [exact H2|]. cbn [app kd] in *. destruct H1 as [H1 H1']. split.
      - intros w Hw. apply elem_of_app in Hw as [Hw|Hw]; [auto|]. apply H12; [left|exact Hw].
      - apply IH; auto. intros x y Hx Hy. apply H12; [right; exact Hx|exact Hy]. }
    apply Happ.
    - apply (Hb 0%nat g eq_refl).
    - apply (IH (S s)). intros i g' Hg'. destruct (Hb (S i) g' Hg') as [A B]. split; [|exact B]. intros v Hv. rewrite (A v Hv). lia.
    - intros v w Hv Hw. apply elem_of_list_bind in Hw as (g' & Hw & Hg'). apply elem_of_list_lookup in Hg' as [i Hg'].
      destruct (Hb 0%nat g eq_refl) as [A _]. destruct (Hb (S i) g' Hg') as [B _]. destruct (keq (kf v) (kf w)) eqn:Ek; [|reflexivity]. apply bkt_keq in Ek. rewrite (A v Hv), (B w Hw) in Ek. lia.
  Qed.
  Lemma content_kd L u G st : urep L u G st -> keys_distinct kf keq (G ≫= gvals).
  Proof using All. intros R. apply content_kd_of; [apply (ur_bkt _ _ _ _ R)|apply (ur_kd _ _ _ _ R)]. Qed.
  Lemma inserted_content G st v G' st' q : inserted G st v G' st' q -> G' ≫= gvals ≡ₚ v :: (G ≫= gvals).
  Proof.
    intros [(es & Hg & _ & -> & _) |(h & es & Hg & _ & ->)]; destruct (bind_split gvals G _ _ Hg) as (rest & P1 & P2 & _); rewrite P1, P2; unfold gvals; cbn [fst snd olist app]; [reflexivity|].
    rewrite fmap_app. cbn [fmap list_fmap snd]. rewrite <- app_assoc. cbn [app]. rewrite <- Permutation_middle. constructor.
  Qed.
  Lemma erased_content G st k G' st' q v : erased G st k G' st' q v -> G ≫= gvals ≡ₚ v :: (G' ≫= gvals).
  Proof.
    intros [(es & Hg & _ & -> & _) |(h & es1 & es2 & Hg & _ & -> & _)]; destruct (bind_split gvals G _ _ Hg) as (rest & P1 & P2 & _); rewrite P1, P2; unfold gvals; cbn [fst snd olist app]; [reflexivity|].
    rewrite !fmap_app. cbn [fmap list_fmap snd]. rewrite <- Permutation_middle, <- Permutation_middle. reflexivity.
  Qed.

  Lemma insert_sim fuel u G st v : (2 <= fuel)%nat -> urep L0 u G st ->
    exists u' p ok o G' st', u_insert kf hash keq fuel u v = Ret (u', p, ok) /\ urep L0 u' G' st' /\ ainsert (absg <$> G) v = (absg <$> G', ok) /\
      deref u' p = Ret o /\ o = (if ok then Some v else None) /\ spec_insert kf keq (G ≫= gvals) v ok o (G' ≫= gvals) /\
      (ok = false -> u' = u /\ G' = G /\ (gin (kf v) G <> None \/ length (G ≫= gvals) = n \/ st = [])) /\
      (ok = true -> gin (kf v) G = None /\ length (G ≫= gvals) <> n /\ st <> []).
  Proof using All.
    intros Hf R. pose proof (gin_afind _ _ _ _ (kf v) R) as Hfind. destruct (achain_abs _ _ _ _ R) as [Hch Hst].
    destruct (insert_rep fuel u G st v Hf R) as [(u' & st' & G' & q & E1 & E2 & E3 & E4 & R' & Hins & Ev & Hq) |(E1 & Hrej)].
    - exists u', (Z.of_nat q), true, (Some v), G', st'. split; [exact E1|]. split; [exact R'|]. split.
      { unfold ainsert. rewrite E2 in Hfind. rewrite Hfind, acontent_abs. rewrite bool_decide_eq_false_2 by exact E3.
        rewrite bool_decide_eq_false_2 by (rewrite Hch; destruct st; [contradiction|cbn in *; lia]). cbn [orb].
        rewrite list_lookup_fmap. destruct Hins as [(es & Hg & _ & -> & _) |(h & es & Hg & _ & ->)]; rewrite Hg; cbn [fmap option_fmap option_map absg fst snd]; f_equal; rewrite list_fmap_insert; unfold absg; cbn [fst snd]; [reflexivity|].
        rewrite fmap_app. reflexivity. }
      split.
      { unfold deref. rewrite (total_count_rep _ _ _ _ R'). rewrite (proj2 (Z.eqb_neq _ _)) by lia. rewrite (u_value_nat _ q v); [reflexivity|]. rewrite Ev. apply list_lookup_insert. rewrite (ur_lv _ _ _ _ R). exact Hq. }
      split; [reflexivity|]. split.
      { split; [|split; [reflexivity|eapply inserted_content; eauto]]. intros Hh. apply (holds_gin _ _ _ _ _ R) in Hh. contradiction. }
      split; [discriminate|auto].
    - exists u, (Z.of_nat n), false, None, G, st. split; [exact E1|]. split; [exact R|]. split.
      { unfold ainsert. destruct (gin (kf v) G) as [p|] eqn:Eg.
        - destruct Hfind as (w & -> & _). reflexivity.
        - rewrite Hfind, acontent_abs. destruct Hrej as [H|H]; [contradiction|].
          assert (Hor : bool_decide (length (G ≫= gvals) = n) || bool_decide (length ((absg <$> G) ≫= snd) = E) = true).
          { destruct H as [H|H]; [rewrite bool_decide_eq_true_2 by exact H; reflexivity|]. rewrite (bool_decide_eq_true_2 (length ((absg <$> G) ≫= snd) = E)); [apply orb_true_r|]. rewrite Hch, H. cbn. lia. }
          rewrite Hor. reflexivity. }
      split; [unfold deref; rewrite (total_count_rep _ _ _ _ R), Z.eqb_refl; reflexivity|]. split; [reflexivity|]. split; [cbn; auto|]. split; [auto|discriminate].
  Qed.

  Lemma rm_split k vs1 v vs2 : (forall w, w ∈ vs1 -> keq (kf w) k = false) -> keq (kf v) k = true -> rm k (vs1 ++ v :: vs2) = vs1 ++ vs2.
  Proof.
    induction vs1 as [|w vs1 IH]; intros H Hk; cbn [app rm]; [rewrite Hk; reflexivity|]. rewrite H by left. f_equal. apply IH; [|exact Hk]. intros x Hx. apply H. right. exact Hx.
  Qed.
  Lemma erase_sim fuel u G st k : (2 <= fuel)%nat -> urep L0 u G st ->
    exists u' m G' st', u_erase kf hash keq fuel u k = Ret (u', m) /\ urep L0 u' G' st' /\ aerase (absg <$> G) k = (absg <$> G', m) /\
      spec_erase kf keq (G ≫= gvals) k m (G' ≫= gvals).
  Proof using All.
    intros Hf R. pose proof (gin_afind _ _ _ _ k R) as Hfind.
    destruct (erase_rep fuel u G st k Hf R) as [(u' & st' & G' & q & v & E1 & R' & Her & Hk & Hv & Ev & Eg) |(E1 & Eg)].
    - exists u', 1, G', st'. split; [exact E1|]. split; [exact R'|]. split.
      { unfold aerase. rewrite Eg in Hfind. destruct Hfind as (w & -> & _). rewrite list_lookup_fmap.
        destruct Her as [(es & Hg & _ & -> & _) |(h & es1 & es2 & Hg & Hno & -> & _)]; rewrite Hg; cbn [fmap option_fmap option_map absg fst snd]; f_equal; rewrite list_fmap_insert; unfold absg; cbn [fst snd].
        - rewrite Hk. reflexivity.
        - replace (match h with Some w => keq (kf w) k | None => false end) with false.
          2: { destruct h as [x|]; [|reflexivity]. symmetry. apply Hno. left. }
          rewrite !fmap_app. cbn [fmap list_fmap snd]. rewrite rm_split; [reflexivity| |exact Hk]. intros x Hx. apply Hno. apply elem_of_app. right. exact Hx. }
      assert (Hp : G ≫= gvals ≡ₚ v :: (G' ≫= gvals)) by (eapply erased_content; eauto).
      split.
      + intros _. split; [reflexivity|]. exists v. split; [exact Hk|]. split; [exact Hp|].
        pose proof (content_kd _ _ _ _ R) as Hkd. apply (kd_perm_iff _ _ Hp) in Hkd. apply kd_cons in Hkd as [Hkd _].
        intros (w & Hw & Hwk). specialize (Hkd w Hw). rewrite (keq_trans _ k) in Hkd; [discriminate|exact Hwk|apply keq_sym; exact Hk].
      + intros Hn. exfalso. apply Hn. apply (holds_gin _ _ _ _ _ R). congruence.
    - exists u, 0, G, st. split; [exact E1|]. split; [exact R|]. rewrite Eg in Hfind. split; [unfold aerase; rewrite Hfind; reflexivity|].
      split; [|auto]. intros Hh. apply (holds_gin _ _ _ _ _ R) in Hh. contradiction.
  Qed.

  Lemma bucket_filter L u G st b g : urep L u G st -> G !! b = Some g -> length (filter (fun v => Z.of_nat (bkt (kf v)) = Z.of_nat b) (G ≫= gvals)) = length (gvals g).
  Proof using All.
    intros R Hg. rewrite <- (take_drop_middle G b g Hg) at 1. rewrite bind_app. change ((g :: drop (S b) G) ≫= gvals) with (gvals g ++ (drop (S b) G ≫= gvals)).
    rewrite !filter_app, !app_length.
    assert (Hnone : forall G1, (forall g1, g1 ∈ G1 -> exists b1, b1 <> b /\ G !! b1 = Some g1) -> filter (fun v => Z.of_nat (bkt (kf v)) = Z.of_nat b) (G1 ≫= gvals) = []).
    { intros G1 H1. induction G1 as [|g1 G1 IH]; [reflexivity|]. change ((g1 :: G1) ≫= gvals) with (gvals g1 ++ (G1 ≫= gvals)). rewrite filter_app, IH by (intros x Hx; apply H1; right; exact Hx).
      rewrite app_nil_r. destruct (H1 g1 ltac:(left)) as (b1 & Hne & Hg1). pose proof (fun v => ur_bkt _ _ _ _ R _ _ v Hg1) as Hb.
      clear - Hb Hne. induction (gvals g1) as [|v vs IH]; [reflexivity|]. rewrite filter_cons, decide_False by (rewrite (Hb v) by left; lia). apply IH. intros w Hw. apply Hb. right. exact Hw. }
    rewrite (Hnone (take b G)), (Hnone (drop (S b) G)).
    - rewrite Nat.add_0_l, Nat.add_0_r. f_equal. pose proof (fun v => ur_bkt _ _ _ _ R _ _ v Hg) as Hb. clear - Hb.
      induction (gvals g) as [|v vs IH]; [reflexivity|]. rewrite filter_cons, decide_True by (rewrite (Hb v) by left; lia). f_equal. apply IH. intros w Hw. apply Hb. right. exact Hw.
    - intros g1 H1. apply elem_of_list_lookup in H1 as [i Hi]. rewrite lookup_drop in Hi. exists (S b + i)%nat. split; [lia|exact Hi].
    - intros g1 H1. apply elem_of_list_lookup in H1 as [i Hi]. pose proof (lookup_lt_Some _ _ _ Hi) as Hl. rewrite take_length in Hl. rewrite lookup_take in Hi by lia. exists i. split; [lia|exact Hi].
  Qed.

  Lemma omap_seq {A} (vs : list A) : omap (vs !!.) (seq 0 (length vs)) = vs.
  Proof.
    induction vs as [|x vs IH] using rev_ind; [reflexivity|]. rewrite app_length, seq_app, omap_app. cbn [length seq Nat.add]. f_equal.
    - etransitivity; [|exact IH]. clear IH. assert (Hs : forall i, i ∈ seq 0 (length vs) -> (i < length vs)%nat) by (intros i Hi; apply elem_of_seq in Hi; lia).
      induction (seq 0 (length vs)) as [|i l IH]; [reflexivity|]. cbn [omap list_omap]. rewrite lookup_app_l by (apply Hs; left). destruct (vs !! i); [f_equal|]; apply IH; intros j Hj; apply Hs; right; exact Hj.
    - cbn. rewrite lookup_app_r, Nat.sub_diag by lia. reflexivity.
  Qed.

  Lemma spec_inserts_app M vs M1 v ok o M2 : spec_inserts kf keq M vs M1 -> spec_insert kf keq M1 v ok o M2 -> spec_inserts kf keq M (vs ++ [v]) M2.
  Proof.
    revert M. induction vs as [|w vs IH]; intros M H1 H2; cbn [spec_inserts app] in *.
    - exists ok, o, M2. split; [|reflexivity]. unfold spec_insert in *. destruct ok; [|rewrite H1 in H2; exact H2].
      destruct H2 as (A & B & C). rewrite H1 in C. split; [|auto]. intros (x & Hx & Hk). apply A. exists x. rewrite H1. auto.
    - destruct H1 as (ok1 & o1 & M3 & A & B). exists ok1, o1, M3. split; [exact A|]. apply IH; assumption.
  Qed.
  Lemma insert_fold fuel (vs : list V) (l : list nat) : (2 <= fuel)%nat -> (forall i, i ∈ l -> (i < length vs)%nat) -> forall u G st, urep L0 u G st ->
    exists u' G' st', fold_left (fun acc i => let! s := acc in match vs !! i with Some v => let! (u, _, _) := u_insert kf hash keq fuel s v in Ret u | None => UB end) l (Ret u) = Ret u' /\
      urep L0 u' G' st' /\ fold_left (fun A v => (ainsert A v).1) (omap (vs !!.) l) (absg <$> G) = absg <$> G' /\ spec_inserts kf keq (G ≫= gvals) (omap (vs !!.) l) (G' ≫= gvals).
  Proof using All.
    intros Hf. induction l as [|i l IH]; intros Hl u G st R.
    - exists u, G, st. cbn. auto.
    - cbn [fold_left omap list_omap obind]. destruct (lookup_lt_is_Some_2 vs i (Hl i ltac:(left))) as [v Hv]. rewrite Hv.
      destruct (insert_sim fuel u G st v Hf R) as (u1 & p & ok & o & G1 & st1 & E1 & R1 & E2 & _ & _ & E3 & _). rewrite E1. cbn [obind].
      destruct (IH ltac:(intros j Hj; apply Hl; right; exact Hj) u1 G1 st1 R1) as (u' & G' & st' & F1 & R' & F2 & F3).
      exists u', G', st'. split; [exact F1|]. split; [exact R'|]. split; [cbn [fold_left]; rewrite E2; exact F2|]. cbn [spec_inserts]. exists ok, o, (G1 ≫= gvals). auto.
  Qed.
  Lemma erase_fold fuel (ks : list K) (l : list nat) : (2 <= fuel)%nat -> (forall i, i ∈ l -> (i < length ks)%nat) -> forall u G st, urep L0 u G st ->
    exists u' G' st', fold_left (fun acc i => let! s := acc in match ks !! i with Some k => let! (u, _) := u_erase kf hash keq fuel s k in Ret u | None => UB end) l (Ret u) = Ret u' /\
      urep L0 u' G' st' /\ fold_left (fun A k => (aerase A k).1) (omap (ks !!.) l) (absg <$> G) = absg <$> G' /\ spec_erases kf keq (G ≫= gvals) (omap (ks !!.) l) (G' ≫= gvals).
  Proof using All.
    intros Hf. induction l as [|i l IH]; intros Hl u G st R.
    - exists u, G, st. cbn. auto.
    - cbn [fold_left omap list_omap obind]. destruct (lookup_lt_is_Some_2 ks i (Hl i ltac:(left))) as [k Hk]. rewrite Hk.
      destruct (erase_sim fuel u G st k Hf R) as (u1 & m & G1 & st1 & E1 & R1 & E2 & E3). rewrite E1. cbn [obind].
      destruct (IH ltac:(intros j Hj; apply Hl; right; exact Hj) u1 G1 st1 R1) as (u' & G' & st' & F1 & R' & F2 & F3).
      exists u', G', st'. split; [exact F1|]. split; [exact R'|]. split; [cbn [fold_left]; rewrite E2; exact F2|]. cbn [spec_erases]. exists m, (G1 ≫= gvals). auto.
  Qed.
  Lemma set_indices_rep L u G st r : urep L u G st -> length r = n -> urep L (set_indices u r) G st.
  Proof using All. intros R Hr. destruct R. split; cbn [set_indices u_bc u_values u_off u_occ u_locks u_count u_excess u_indices u_ev]; auto. Qed.

  Lemma abs_G0 : absg <$> G0 = replicate bc (None, []).
  Proof. rewrite fmap_replicate. reflexivity. Qed.

  Notation bucketz := (fun k => Z.of_nat (bkt k)).
  Lemma step_sim fuel u G st op : (2 <= fuel)%nat -> urep L0 u G st -> uop_ok (Z.of_nat bc) op ->
    exists u' r r' G' st', u_step kf hash keq opt ord fuel u op = Ret (u', r) /\ urep L0 u' G' st' /\ astep (absg <$> G) op = (absg <$> G', r') /\ same_ures r r' /\
      spec_ustep kf keq bucketz (Z.of_nat n) (G ≫= gvals) op r (G' ≫= gvals).
  Proof using All.
    intros Hf R Hop. pose proof (acontent_abs G) as Hac. destruct op as [v|k|k|k|k| | | | | |m| | |vs|ks]; cbn [u_step astep].
    - destruct (insert_sim fuel u G st v Hf R) as (u' & p & ok & o & G' & st' & E1 & R' & E2 & E3 & E4 & E5 & _). rewrite E1. cbn [obind]. rewrite E3. cbn [obind]. rewrite E2.
      eexists u', _, _, G', st'. split; [reflexivity|]. split; [exact R'|]. split; [reflexivity|]. split; [rewrite E4; reflexivity|exact E5].
    - destruct (erase_sim fuel u G st k Hf R) as (u' & m & G' & st' & E1 & R' & E2 & E3). rewrite E1. cbn [obind]. rewrite E2.
      eexists u', _, _, G', st'. split; [reflexivity|]. split; [exact R'|]. split; [reflexivity|]. split; [reflexivity|exact E3].
    - rewrite (find_gin _ _ _ _ _ R). cbn [obind]. pose proof (gin_afind _ _ _ _ k R) as Hfind. pose proof (holds_gin _ _ _ _ k R) as Hh. destruct (gin k G) as [p|].
      + destruct Hfind as (v & Ef & Hv & Hp & Hk). unfold deref. change (default (Z.of_nat n) (Z.of_nat <$> Some p)) with (Z.of_nat p). rewrite (total_count_rep _ _ _ _ R). rewrite (proj2 (Z.eqb_neq _ _)) by lia.
        rewrite (u_value_nat _ _ _ Hv). cbn [obind]. eexists u, _, _, G, st. split; [reflexivity|]. split; [exact R|]. split; [reflexivity|]. split; [rewrite Ef; reflexivity|].
        cbn. split; [|auto]. rewrite <- (content_perm _ _ _ _ R). apply elem_of_list_bind. exists (Some v). split; [left|]. apply elem_of_list_lookup. eauto.
      + unfold deref. change (default (Z.of_nat n) (Z.of_nat <$> None)) with (Z.of_nat n). rewrite (total_count_rep _ _ _ _ R), Z.eqb_refl. cbn [obind].
        eexists u, _, _, G, st. split; [reflexivity|]. split; [exact R|]. split; [reflexivity|]. split; [rewrite Hfind; reflexivity|]. cbn. split; [|reflexivity]. rewrite Hh. auto.
    - rewrite (contains_gin _ _ _ _ _ R). cbn [obind]. pose proof (gin_afind _ _ _ _ k R) as Hfind. pose proof (holds_gin _ _ _ _ k R) as Hh.
      eexists u, _, _, G, st. split; [reflexivity|]. split; [exact R|]. split; [reflexivity|]. split.
      + destruct (gin k G); [destruct Hfind as (v & -> & _)|rewrite Hfind]; reflexivity.
      + cbn. split; [|reflexivity]. rewrite Hh. destruct (gin k G); cbn; split; intros; congruence.
    - unfold u_count_of. rewrite (contains_gin _ _ _ _ _ R). cbn [obind]. pose proof (gin_afind _ _ _ _ k R) as Hfind. pose proof (holds_gin _ _ _ _ k R) as Hh.
      eexists u, _, _, G, st. split; [reflexivity|]. split; [exact R|]. split; [reflexivity|]. split.
      + destruct (gin k G); [destruct Hfind as (v & -> & _)|rewrite Hfind]; reflexivity.
      + cbn. rewrite Hh. destruct (gin k G); cbn; (split; [|split; [|reflexivity]]); intros H; try reflexivity; exfalso; try (apply H; discriminate); apply H; reflexivity.
    - destruct (clear_rep u G st R) as (u' & st' & E1 & R' & _). rewrite E1. cbn [obind]. eexists u', _, _, _, st'. split; [reflexivity|]. split; [exact R'|]. rewrite abs_G0. split; [reflexivity|].
      split; [reflexivity|]. cbn. apply G0_content.
    - destruct (size_rep _ _ _ _ R) as [-> _]. cbn [obind]. eexists u, _, _, G, st. split; [reflexivity|]. split; [exact R|]. split; [reflexivity|]. rewrite Hac. split; [reflexivity|]. cbn. auto.
    - unfold u_empty. destruct (size_rep _ _ _ _ R) as [-> _]. cbn [obind]. eexists u, _, _, G, st. split; [reflexivity|]. split; [exact R|]. split; [reflexivity|]. rewrite Hac. split; [reflexivity|].
      cbn. split; [|reflexivity]. rewrite Z.eqb_eq. split; intros H; [apply nil_length_inv; lia|rewrite H; reflexivity].
    - rewrite (full_rep _ _ _ _ R). cbn [obind]. eexists u, _, _, G, st. split; [reflexivity|]. split; [exact R|]. split; [reflexivity|]. rewrite Hac. split; [reflexivity|].
      cbn. split; [|reflexivity]. rewrite bool_decide_eq_true. lia.
    - rewrite (total_count_rep _ _ _ _ R). eexists u, _, _, G, st. split; [reflexivity|]. split; [exact R|]. split; [reflexivity|]. split; [reflexivity|]. cbn. split; [reflexivity|]. split; [|reflexivity].
      destruct (size_rep _ _ _ _ R) as [_ H]. lia.
    - cbn in Hop. assert (exists b, m = Z.of_nat b) as [b ->] by (exists (Z.to_nat m); lia). destruct (bucket_exists _ _ _ _ R b ltac:(lia)) as [g Hg].
      rewrite (bucket_size_rep _ _ _ _ _ _ R Hg). cbn [obind]. eexists u, _, _, G, st. split; [reflexivity|]. split; [exact R|]. split; [reflexivity|]. split.
      + cbn. rewrite Nat2Z.id, list_lookup_fmap, Hg. reflexivity.
      + cbn [spec_ustep]. split; [|reflexivity]. f_equal. rewrite (bucket_filter _ _ _ _ _ _ R Hg). reflexivity.
    - destruct (range_rep _ _ _ _ R) as (r & E1 & Hr & l & E2 & E3). rewrite E1. cbn [obind]. change (u_values (set_indices u r)) with (u_values u). rewrite E2.
      eexists _, _, _, G, st. split; [reflexivity|]. split; [apply set_indices_rep; assumption|]. split; [reflexivity|]. rewrite Hac. split; [exact E3|]. cbn. auto.
    - rewrite (valid_rep _ _ _ R). cbn [obind]. eexists u, _, _, G, st. split; [reflexivity|]. split; [exact R|]. split; [reflexivity|]. split; [reflexivity|]. cbn. auto.
    - unfold u_insert_range, u_for_each. destruct (insert_fold fuel vs (ord (length vs)) Hf) with (u := u) (G := G) (st := st) as (u' & G' & st' & E1 & R' & E2 & E3); [|exact R|].
      { intros i Hi. rewrite (Hord _) in Hi. apply elem_of_seq in Hi. lia. }
      rewrite E1. cbn [obind]. eexists u', _, _, G', st'. split; [reflexivity|]. split; [exact R'|]. rewrite E2. split; [reflexivity|]. split; [reflexivity|].
      cbn. eexists. split; [|exact E3]. rewrite (Hord _). rewrite omap_seq. reflexivity.
    - unfold u_erase_range, u_for_each. destruct (erase_fold fuel ks (ord (length ks)) Hf) with (u := u) (G := G) (st := st) as (u' & G' & st' & E1 & R' & E2 & E3); [|exact R|].
      { intros i Hi. rewrite (Hord _) in Hi. apply elem_of_seq in Hi. lia. }
      rewrite E1. cbn [obind]. eexists u', _, _, G', st'. split; [reflexivity|]. split; [exact R'|]. rewrite E2. split; [reflexivity|]. split; [reflexivity|].
      cbn. eexists. split; [|exact E3]. rewrite (Hord _). rewrite omap_seq. reflexivity.
  Qed.

  Fixpoint arun (A : list (option V * list V)) (ops : list (uop K V)) : list (option V * list V) * list (ures V) :=
    match ops with [] => (A, []) | op :: ops => let '(A1, r) := astep A op in let '(A2, rs) := arun A1 ops in (A2, r :: rs) end.
  Lemma run_sim fuel ops : (2 <= fuel)%nat -> Forall (uop_ok (Z.of_nat bc)) ops -> forall u G st, urep L0 u G st ->
    exists u' rs rs' G' st', u_run kf hash keq opt ord fuel u ops = Ret (u', rs) /\ urep L0 u' G' st' /\ arun (absg <$> G) ops = (absg <$> G', rs') /\ Forall2 same_ures rs rs' /\
      spec_urun kf keq bucketz (Z.of_nat n) (G ≫= gvals) ops rs (G' ≫= gvals).
  Proof using All.
    intros Hf. induction ops as [|op ops IH]; intros Hops u G st R.
    - exists u, [], [], G, st. cbn. auto.
    - apply Forall_cons in Hops as [Hop Hops]. destruct (step_sim fuel u G st op Hf R Hop) as (u1 & r & r' & G1 & st1 & E1 & R1 & E2 & E3 & E4).
      destruct (IH Hops u1 G1 st1 R1) as (u' & rs & rs' & G' & st' & F1 & R' & F2 & F3 & F4).
      exists u', (r :: rs), (r' :: rs'), G', st'. cbn [u_run arun]. rewrite E1. cbn [obind]. rewrite F1. cbn [obind]. rewrite E2, F2.
      split; [reflexivity|]. split; [exact R'|]. split; [reflexivity|]. split; [constructor; assumption|]. cbn. eauto.
  Qed.
  Lemma same_ures_trans (r r1 r2 : ures V) : same_ures r r1 -> same_ures r2 r1 -> same_ures r r2.
  Proof. unfold same_ures. destruct r, r1, r2; try congruence. intros H1 H2. rewrite H1, H2. reflexivity. Qed.

  Lemma gin_keq a b G : keq a b = true -> gin a G = gin b G.
  Proof using All.
    intros H. assert (Hx : forall x, keq x a = keq x b).
    { intros x. destruct (keq x a) eqn:E1, (keq x b) eqn:E2; auto; exfalso; [rewrite (keq_trans x a b) in E2|rewrite (keq_trans x b a) in E1]; auto; discriminate. }
    unfold gin. rewrite (bkt_keq _ _ H). destruct (G !! bkt b) as [[h es]|]; [|reflexivity]. cbn. unfold gfind. cbn [fst snd].
    assert (Hm : first_match kf keq a es = first_match kf keq b es).
    { unfold first_match. f_equal. induction es as [|[q v] es IH]; [reflexivity|]. cbn [find snd]. rewrite Hx. destruct (keq (kf v) b); [reflexivity|exact IH]. }
    destruct h as [w|]; rewrite ?Hx, Hm; reflexivity.
  Qed.

  (** *** statements about every reachable table *)
  (** *** a sequence of insertions of distinct keys into a new container *)
  Fixpoint dup_count (bs : list nat) : nat := match bs with [] => 0%nat | b :: bs => ((if decide (b ∈ bs) then 1 else 0) + dup_count bs)%nat end.
  Lemma dup_count_app l bs : (dup_count bs <= dup_count (l ++ bs))%nat.
  Proof. induction l as [|b l IH]; cbn [app dup_count]; lia. Qed.
  Lemma inserts_succeed fuel : (2 <= fuel)%nat -> forall vs u G st done, urep L0 u G st -> (G ≫= gvals) ≡ₚ done ->
    (forall b g, G !! b = Some g -> (g.1 = None <-> b ∉ (fun v => bkt (kf v)) <$> done)) ->
    (length st + dup_count ((fun v => bkt (kf v)) <$> done) = E)%nat ->
    keys_distinct kf keq (done ++ vs) -> (dup_count ((fun v => bkt (kf v)) <$> (rev vs ++ done)) < E)%nat ->
    exists u', u_run kf hash keq opt ord fuel u (UInsert <$> vs) = Ret (u', (fun v => UIns true (Some v)) <$> vs).
  Proof using All.
    intros Hf. induction vs as [|v vs IH]; intros u G st done R Hc Hh Hst Hkd Hd; [exists u; reflexivity|].
    assert (Hd1 : (dup_count ((fun v => bkt (kf v)) <$> done) < E)%nat).
    { rewrite fmap_app in Hd. pose proof (dup_count_app ((fun v => bkt (kf v)) <$> rev (v :: vs)) ((fun v => bkt (kf v)) <$> done)). lia. }
    assert (Hst0 : st <> []) by (intros ->; cbn in Hst; lia).
    assert (Hnew : gin (kf v) G = None).
    { destruct (gin (kf v) G) eqn:Eg; [|reflexivity]. exfalso. assert (Hho : holds kf keq (G ≫= gvals) (kf v)) by (apply (holds_gin _ _ _ _ _ R); rewrite Eg; discriminate).
      destruct Hho as (w & Hw & Hk). rewrite Hc in Hw. apply elem_of_list_lookup in Hw as [i Hi]. pose proof (lookup_lt_Some _ _ _ Hi).
      assert (i = length done); [|lia]. apply (Hkd i (length done) w v); [rewrite lookup_app_l by lia; exact Hi| |exact Hk].
      rewrite lookup_app_r by lia. rewrite Nat.sub_diag. reflexivity. }
    destruct (content_le _ _ _ _ R) as [L1 L2].
    assert (Hlst : (0 < length st)%nat) by (destruct st; [contradiction|cbn; lia]).
    destruct (insert_sim fuel u G st v Hf R) as (u2 & p2 & ok & o & G2 & st2 & F1 & _ & _ & F2 & F3 & _ & F4 & _).
    destruct (insert_rep fuel u G st v Hf R) as [(u' & st' & G' & q & E1 & E2 & E3 & E4 & R' & Hins & Ev & Hq) |(E1 & Hrej)].
    2: { exfalso. destruct Hrej as [H|[H|H]]; [contradiction|lia|contradiction]. }
    rewrite E1 in F1. injection F1 as <- <- <-. rewrite fmap_cons. cbn [u_run u_step]. rewrite E1. cbn [obind]. rewrite F2, F3. cbn [obind].
    assert (Hc' : (G' ≫= gvals) ≡ₚ v :: done).
    { rewrite <- Hc. destruct Hins as [(es & Hg & -> & -> & ->) |(h & es & Hg & -> & ->)].
      all: rewrite <- (list_insert_id G _ _ Hg) at 2; rewrite !insert_take_drop by (apply lookup_lt_Some in Hg; exact Hg); rewrite !bind_app.
      - change (((Some v, es) :: drop (S (bkt (kf v))) G) ≫= gvals) with ((v :: es.*2) ++ (drop (S (bkt (kf v))) G ≫= gvals)).
        change (((None, es) :: drop (S (bkt (kf v))) G) ≫= gvals) with (es.*2 ++ (drop (S (bkt (kf v))) G ≫= gvals)).
        cbn [app]. symmetry. apply Permutation_middle.
      - change (((Some h, es ++ [(q, v)]) :: drop (S (bkt (kf v))) G) ≫= gvals) with ((h :: (es ++ [(q, v)]).*2) ++ (drop (S (bkt (kf v))) G ≫= gvals)).
        change (((Some h, es) :: drop (S (bkt (kf v))) G) ≫= gvals) with ((h :: es.*2) ++ (drop (S (bkt (kf v))) G ≫= gvals)).
        rewrite fmap_app. cbn [fmap list_fmap snd app]. rewrite <- app_assoc. cbn [app]. etransitivity; [|symmetry; apply Permutation_middle]. apply Permutation_app_head. etransitivity; [|apply perm_swap]. apply perm_skip. symmetry. apply Permutation_middle. }
    destruct (IH u' G' st' (v :: done) R' Hc') as [u3 E5].
    - intros b g Hg. rewrite fmap_cons, not_elem_of_cons. destruct Hins as [(es & Hg0 & -> & -> & ->) |(h & es & Hg0 & -> & ->)].
      + destruct (decide (b = bkt (kf v))) as [-> |Hne].
        * rewrite list_lookup_insert in Hg by (apply lookup_lt_Some in Hg0; exact Hg0). injection Hg as <-. cbn [fst]. split; [discriminate|tauto].
        * rewrite list_lookup_insert_ne in Hg by congruence. rewrite (Hh _ _ Hg). tauto.
      + destruct (decide (b = bkt (kf v))) as [-> |Hne].
        * rewrite list_lookup_insert in Hg by (apply lookup_lt_Some in Hg0; exact Hg0). injection Hg as <-. cbn [fst]. split; [discriminate|tauto].
        * rewrite list_lookup_insert_ne in Hg by congruence. rewrite (Hh _ _ Hg). tauto.
    - rewrite fmap_cons. cbn [dup_count]. destruct Hins as [(es & Hg0 & -> & -> & ->) |(h & es & Hg0 & -> & ->)].
      + rewrite decide_False by (apply (Hh _ _ Hg0); reflexivity). lia.
      + rewrite app_length in Hst. cbn in Hst. rewrite decide_True; [lia|]. destruct (decide (bkt (kf v) ∈ (fun v => bkt (kf v)) <$> done)) as [H|H]; [exact H|]. apply (Hh _ _ Hg0) in H. discriminate.
    - intros i j x y Hi Hj Hk. assert (Hp : (v :: done) ++ vs ≡ₚ done ++ v :: vs) by (cbn; apply Permutation_middle).
      apply (kd_perm_iff _ _ (symmetry Hp)) in Hkd. exact (Hkd i j x y Hi Hj Hk).
    - cbn [rev] in Hd. rewrite <- app_assoc in Hd. exact Hd.
    - exists u3. rewrite E5. reflexivity.
  Qed.

  Section reachable.
    Context (fuel : nat) (Hf : (2 <= fuel)%nat) (junk : list Z) (ops : list (uop K V)) (Hops : Forall (uop_ok (Z.of_nat bc)) ops).

    Lemma reach : exists u0 u rs G st, unordered_create ord junk (Z.of_nat bc) (Z.of_nat E) = Ret u0 /\ u_run kf hash keq opt ord fuel u0 ops = Ret (u, rs) /\ urep L0 u0 G0 (seq bc E) /\ urep L0 u G st /\
      spec_urun kf keq bucketz (Z.of_nat n) [] ops rs (G ≫= gvals).
    Proof using All.
      destruct (create_rep junk) as (u0 & E0 & R0 & _). destruct (run_sim fuel ops Hf Hops u0 _ _ R0) as (u & rs & rs' & G & st & E1 & R & _ & _ & E2).
      rewrite G0_content in E2. exists u0, u, rs, G, st. auto 10.
    Qed.

    Lemma erase_keeps u0 u rs k : unordered_create ord junk (Z.of_nat bc) (Z.of_nat E) = Ret u0 -> u_run kf hash keq opt ord fuel u0 ops = Ret (u, rs) ->
      exists u' m, u_erase kf hash keq fuel u k = Ret (u', m) /\
        (forall k' p, keq k' k = false -> u_find kf hash keq u k' = Ret p -> u_find kf hash keq u' k' = Ret p) /\
        (forall k' p v, keq k' k = false -> u_find kf hash keq u k' = Ret p -> u_value u p = Ret v -> u_value u' p = Ret v).
    Proof using All.
      intros E0 E1. destruct reach as (u0' & u1 & rs1 & G & st & F0 & F1 & _ & R & _). rewrite E0 in F0. injection F0 as <-. rewrite E1 in F1. injection F1 as <- <-.
      destruct (erase_rep fuel u G st k Hf R) as [(u' & st' & G' & q & v & F2 & R' & Her & Hk & Hv & Ev & Eg) |(F2 & Eg)].
      2: { exists u, 0. split; [exact F2|]. auto. }
      exists u', 1. split; [exact F2|].
      assert (Hpos : forall k', keq k' k = false -> gin k' G' = gin k' G).
      { intros k' Hne. destruct (gin k' G) as [p|] eqn:Ep.
        - pose proof (gin_afind _ _ _ _ k' R) as Ha. rewrite Ep in Ha. destruct Ha as (w & _ & Hw & _ & Hwk).
          assert (p <> q). { intros ->. rewrite Hv in Hw. injection Hw as <-. rewrite (keq_trans k' (kf v) k) in Hne; [discriminate|apply keq_sym; exact Hwk|exact Hk]. }
          assert (Hw' : u_values u' !! p = Some (Some w)) by (rewrite Ev, list_lookup_insert_ne by congruence; exact Hw).
          pose proof (stored_found _ _ _ _ _ _ R' Hw') as Hfnd.
          pose proof (gin_afind _ _ _ _ k' R') as Hb. destruct (gin k' G') as [p'|] eqn:Ep'.
          + destruct Hb as (w' & _ & Hw2 & _ & Hwk2). destruct (decide (p' = p)) as [-> |Hne']; [reflexivity|]. exfalso.
            assert (p' <> q). { intros ->. rewrite Ev, list_lookup_insert in Hw2; [discriminate|]. apply lookup_lt_Some in Hv. exact Hv. }
            assert (Hw3 : u_values u !! p' = Some (Some w')) by (rewrite Ev, list_lookup_insert_ne in Hw2 by congruence; exact Hw2).
            pose proof (stored_found _ _ _ _ _ _ R Hw3) as H1. rewrite (gin_keq _ _ _ Hwk2) in H1. congruence.
          + exfalso. assert (Hh : holds kf keq (G' ≫= gvals) k'). { exists w. split; [|exact Hwk]. rewrite <- (content_perm _ _ _ _ R'). apply elem_of_list_bind. exists (Some w). split; [left|]. apply elem_of_list_lookup. eauto. }
            apply (holds_gin _ _ _ _ _ R') in Hh. contradiction.
        - destruct (gin k' G') as [p'|] eqn:Ep'; [|reflexivity]. exfalso. assert (Hh : holds kf keq (G ≫= gvals) k').
          { assert (Hh : holds kf keq (G' ≫= gvals) k') by (apply (holds_gin _ _ _ _ _ R'); congruence). destruct Hh as (w & Hw & Hwk). exists w. split; [|exact Hwk]. rewrite (erased_content _ _ _ _ _ _ _ Her). right. exact Hw. }
          apply (holds_gin _ _ _ _ _ R) in Hh. contradiction. }
      split.
      - intros k' p Hne. rewrite (find_gin _ _ _ _ _ R), (find_gin _ _ _ _ _ R'), (Hpos k' Hne). auto.
      - intros k' p w Hne Hfp Hw. rewrite (find_gin _ _ _ _ _ R) in Hfp. destruct (gin k' G) as [p'|] eqn:Ep.
        + change (default (Z.of_nat n) (Z.of_nat <$> Some p')) with (Z.of_nat p') in Hfp. injection Hfp as <-.
          pose proof (gin_afind _ _ _ _ k' R) as Ha. rewrite Ep in Ha. destruct Ha as (w' & _ & Hw' & _ & Hwk). rewrite (u_value_nat _ _ _ Hw') in Hw. injection Hw as <-.
          apply u_value_nat. rewrite Ev, list_lookup_insert_ne; [exact Hw'|]. intros <-. rewrite Hv in Hw'. injection Hw' as <-. rewrite (keq_trans k' (kf v) k) in Hne; [discriminate|apply keq_sym; exact Hwk|exact Hk].
        + change (default (Z.of_nat n) (Z.of_nat <$> None)) with (Z.of_nat n) in Hfp. injection Hfp as <-. unfold u_value, zat in Hw. rewrite (proj2 (Z.leb_le _ _)) in Hw by lia. rewrite Nat2Z.id, lookup_ge_None_2 in Hw by (rewrite (ur_lv _ _ _ _ R); lia). discriminate.
    Qed.

    Section at_state.
      Context (u0 u : utab V) (rs : list (ures V)).
      Hypothesis Hcreate : unordered_create ord junk (Z.of_nat bc) (Z.of_nat E) = Ret u0.
      Hypothesis Hrun : u_run kf hash keq opt ord fuel u0 ops = Ret (u, rs).

      Lemma at_rep : exists G st, urep L0 u0 G0 (seq bc E) /\ urep L0 u G st /\ spec_urun kf keq bucketz (Z.of_nat n) [] ops rs (G ≫= gvals).
      Proof using All.
        destruct reach as (u0' & u1 & rs1 & G & st & F0 & F1 & R0 & R & Hs). rewrite Hcreate in F0. injection F0 as <-. rewrite Hrun in F1. injection F1 as <- <-. eauto.
      Qed.

      Lemma range_enumerates : exists u' idx sizes, u_range ord u = Ret (u', idx) /\ NoDup idx /\ (forall p, p ∈ idx <-> exists v, u_value u p = Ret v) /\ u_size u = Ret (Z.of_nat (length idx)) /\
        Forall2 (fun b s => u_bucket_size u (Z.of_nat b) = Ret s) (seq 0 bc) sizes /\ u_size u = Ret (fold_right Z.add 0 sizes).
      Proof using All.
        destruct at_rep as (G & st & _ & R & _). destruct (range_rep _ _ _ _ R) as (r & E1 & Hr & l & E2 & E3).
        exists (set_indices u r), (Z.of_nat <$> filter (fun i => u_occ u !! i = Some true) (ord n)), ((fun g => Z.of_nat (length (gvals g))) <$> G).
        split; [exact E1|]. split.
        { apply NoDup_fmap_2; [intros x y; lia|]. apply NoDup_filter. rewrite (Hord n). apply NoDup_seq. }
        split.
        { intros p. rewrite elem_of_list_fmap. split.
          - intros (i & -> & Hi). apply elem_of_list_filter in Hi as [Hi _]. rewrite (ur_occ _ _ _ _ R) in Hi. destruct (u_values u !! i) as [[v|]|] eqn:Ev; try discriminate. exists v. apply u_value_nat. exact Ev.
          - intros (v & Hv). unfold u_value, zat in Hv. destruct (0 <=? p) eqn:Ep; [|discriminate]. destruct (u_values u !! Z.to_nat p) as [[w|]|] eqn:Ev; try discriminate.
            exists (Z.to_nat p). split; [lia|]. apply elem_of_list_filter. split; [rewrite (ur_occ _ _ _ _ R), Ev; reflexivity|]. rewrite (Hord n). apply elem_of_seq. apply lookup_lt_Some in Ev. rewrite (ur_lv _ _ _ _ R) in Ev. lia. }
        destruct (size_rep _ _ _ _ R) as [Es _]. rewrite Es. split.
        { do 2 f_equal. rewrite fmap_length. rewrite <- (Permutation_length E3). apply mapM_length in E2. rewrite fmap_length in E2. symmetry. exact E2. }
        split.
        - apply Forall2_same_length_lookup_2.
          + rewrite seq_length, fmap_length. symmetry. apply (ur_lg _ _ _ _ R).
          + intros i b x Hi Hx. apply lookup_seq in Hi as [-> Hi]. rewrite list_lookup_fmap in Hx. destruct (G !! i) as [g|] eqn:Eg; [|discriminate]. cbn in Hx. injection Hx as <-. apply (bucket_size_rep _ _ _ _ _ _ R Eg).
        - f_equal. clear. induction G as [|g G IH]; [reflexivity|]. change ((g :: G) ≫= gvals) with (gvals g ++ (G ≫= gvals)). rewrite app_length, fmap_cons. cbn [fold_right]. rewrite <- IH. lia.
      Qed.

      Lemma insert_rejected v : u_contains kf hash keq u (kf v) = Ret false ->
        exists u' p ok, u_insert kf hash keq fuel u v = Ret (u', p, ok) /\ (ok = false <-> u_full u = Ret true \/ v_empty (u_excess u) = true) /\ (ok = false -> u' = u).
      Proof using All.
        intros Hc. destruct at_rep as (G & st & _ & R & _). rewrite (contains_gin _ _ _ _ _ R) in Hc. injection Hc as Hc.
        destruct (insert_sim fuel u G st v Hf R) as (u' & p & ok & o & G' & st' & E1 & _ & _ & _ & _ & _ & E2 & E3). exists u', p, ok. split; [exact E1|].
        rewrite (full_rep _ _ _ _ R), (excess_empty_rep _ _ _ _ R). split; [|intros H; apply E2 in H; tauto]. split.
        - intros ->. destruct (E2 eq_refl) as (_ & _ & [H|[H|H]]).
          + destruct (gin (kf v) G); [discriminate|contradiction].
          + left. rewrite bool_decide_eq_true_2 by exact H. reflexivity.
          + right. apply bool_decide_eq_true_2. exact H.
        - intros H. destruct ok; [|reflexivity]. destruct (E3 eq_refl) as (_ & H1 & H2). exfalso. destruct H as [H|H].
          + injection H as H. apply bool_decide_eq_true in H. contradiction.
          + apply bool_decide_eq_true in H. contradiction.
      Qed.
      Lemma size_bounded : exists s, u_size u = Ret s /\ 0 <= s <= total_count u /\ total_count u = Z.of_nat bc + Z.of_nat E.
      Proof using All. destruct at_rep as (G & st & _ & R & _). destruct (size_rep _ _ _ _ R) as [Es Hl]. rewrite (total_count_rep _ _ _ _ R). eexists. split; [exact Es|]. lia. Qed.

      Lemma clear_fresh (later : list (uop K V)) : Forall (uop_ok (Z.of_nat bc)) later ->
        exists u1 v1 w1 rs1 rs2, u_clear opt ord u = Ret u1 /\ u_size u1 = Ret 0 /\ (forall k, u_find kf hash keq u1 k = Ret (total_count u1)) /\ v_full (u_excess u1) = true /\ u_valid kf hash keq ord u1 = Ret true /\
          (forall p, ~ exists v, u_value u1 p = Ret v) /\
          (opt = false -> exists freed, u_ev u1 = u_ev u ++ ((fun p => EvDestroy (InSlot p)) <$> freed) /\ NoDup freed /\ forall p, p ∈ freed <-> exists v, u_value u (Z.of_nat p) = Ret v) /\
          u_run kf hash keq opt ord fuel u1 later = Ret (v1, rs1) /\ u_run kf hash keq opt ord fuel u0 later = Ret (w1, rs2) /\ Forall2 same_ures rs1 rs2.
      Proof using All.
        intros Hl. destruct at_rep as (G & st & R0 & R & _). destruct (clear_rep u G st R) as (u1 & st1 & E1 & R1 & Hst1 & _ & Hev).
        destruct (run_sim fuel later Hf Hl _ _ _ R1) as (v1 & rs1 & rs1' & Gv & sv & F1 & _ & F2 & F3 & _).
        destruct (run_sim fuel later Hf Hl _ _ _ R0) as (w1 & rs2 & rs2' & Gw & sw & F4 & _ & F5 & F6 & _).
        exists u1, v1, w1, rs1, rs2. split; [exact E1|]. destruct (size_rep _ _ _ _ R1) as [Es _]. rewrite G0_content in Es. split; [exact Es|].
        assert (Hgin : forall k, gin k G0 = None).
        { intros k. unfold gin. destruct (bkt_spec k) as [_ Hb]. rewrite lookup_replicate_2 by exact Hb. reflexivity. }
        split; [intros k; rewrite (find_gin _ _ _ _ _ R1), Hgin, (total_count_rep _ _ _ _ R1); reflexivity|].
        split. { unfold v_full. rewrite (rep_size true ord Hord E _ _ (ur_ex _ _ _ _ R1)), (rep_cap true E _ _ (ur_ex _ _ _ _ R1)), fmap_length, Hst1. apply Z.eqb_refl. }
        split; [apply (valid_rep _ _ _ R1)|]. split.
        { intros p (v & Hv). unfold u_value, zat in Hv. destruct (0 <=? p) eqn:Ep; [|discriminate]. destruct (u_values u1 !! Z.to_nat p) as [[w|]|] eqn:Ev; try discriminate.
          pose proof (stored_found _ _ _ _ _ _ R1 Ev) as H. rewrite Hgin in H. discriminate. }
        split.
        { intros Ho. eexists. split; [exact (Hev Ho)|]. split; [apply NoDup_filter; rewrite (Hord n); apply NoDup_seq|]. intros p. rewrite elem_of_list_filter. split.
          - intros [Hp _]. rewrite (ur_occ _ _ _ _ R) in Hp. destruct (u_values u !! p) as [[v|]|] eqn:Ev; try discriminate. exists v. apply u_value_nat. exact Ev.
          - intros (v & Hv). unfold u_value, zat in Hv. rewrite (proj2 (Z.leb_le _ _)) in Hv by lia. rewrite Nat2Z.id in Hv. destruct (u_values u !! p) as [[w|]|] eqn:Ev; try discriminate.
            split; [rewrite (ur_occ _ _ _ _ R), Ev; reflexivity|]. rewrite (Hord n). apply elem_of_seq. apply lookup_lt_Some in Ev. rewrite (ur_lv _ _ _ _ R) in Ev. lia. }
        split; [exact F1|]. split; [exact F4|]. rewrite F2 in F5. injection F5 as _ <-.
        clear - F3 F6. revert rs2 F6. induction F3 as [|r r1 rs1 rs1' Hr Hrs IH]; intros rs2 F6; inversion F6; subst; constructor; eauto. eapply same_ures_trans; eauto.
      Qed.

      Lemma lifetimes_rep : opt = false -> lifetime_ok nothing (u_ev u) /\ (forall p, live_after nothing (u_ev u) (InSlot p) = true <-> exists v, u_value u (Z.of_nat p) = Ret v) /\
        exists u', unordered_destroy opt ord u = Ret u' /\ lifetime_ok nothing (u_ev u') /\ forall p, live_after nothing (u_ev u') (InSlot p) = false.
      Proof using All.
        intros Ho. destruct at_rep as (G & st & _ & R & _). destruct (ur_life _ _ _ _ R Ho) as [L1 L2]. split; [exact L1|]. split.
        - intros p. rewrite L2. split.
          + intros H. destruct (u_values u !! p) as [[v|]|] eqn:Ev; try discriminate. exists v. apply u_value_nat. exact Ev.
          + intros (v & Hv). unfold u_value, zat in Hv. rewrite (proj2 (Z.leb_le _ _)) in Hv by lia. rewrite Nat2Z.id in Hv. destruct (u_values u !! p) as [[w|]|] eqn:Ev; try discriminate. reflexivity.
        - destruct (clear_rep u G st R) as (u1 & st1 & E1 & R1 & _). exists u1. unfold unordered_destroy. rewrite Ho in E1 |- *. split; [exact E1|]. destruct (ur_life _ _ _ _ R1 Ho) as [M1 M2]. split; [exact M1|].
          intros p. rewrite M2. destruct (u_values u1 !! p) as [[v|]|] eqn:Ev; try reflexivity. exfalso. pose proof (stored_found _ _ _ _ _ _ R1 Ev) as H. unfold gin in H. destruct (bkt_spec (kf v)) as [_ Hb]. rewrite lookup_replicate_2 in H by exact Hb. discriminate.
      Qed.

      (** the entry freed by an erase is the next one handed out *)
      Lemma freed_reused k q v u' m : u_find kf hash keq u k = Ret q -> q <> total_count u -> u_erase kf hash keq fuel u k = Ret (u', m) -> u_contains kf hash keq u' (kf v) = Ret false ->
        (q <> Z.of_nat (bkt k) -> u_occupied u' (Z.of_nat (bkt (kf v))) = Ret true) -> (q = Z.of_nat (bkt k) -> bkt (kf v) = bkt k /\ v_empty (u_excess u') = false) ->
        exists u2, u_insert kf hash keq fuel u' v = Ret (u2, q, true).
      Proof using All.
        intros Hq Hqn He Hc Hq1 Hq2. destruct at_rep as (G & st & _ & R & _).
        destruct (erase_rep fuel u G st k Hf R) as [(u1 & st1 & G1 & q1 & w & F1 & R1 & Her & Hk & Hv & Ev & Eg) |(F1 & Eg)].
        2: { rewrite (find_gin _ _ _ _ _ R), Eg in Hq. injection Hq as Hq. rewrite (total_count_rep _ _ _ _ R) in Hqn. cbn in Hq. congruence. }
        rewrite He in F1. injection F1 as <- ->. rewrite (find_gin _ _ _ _ _ R), Eg in Hq. change (Ret (Z.of_nat q1) = Ret q) in Hq. injection Hq as <-.
        rewrite (contains_gin _ _ _ _ _ R1) in Hc. injection Hc as Hc.
        destruct (insert_rep fuel u' G1 st1 v Hf R1) as [(u2 & st2 & G2 & q2 & E1 & _ & _ & _ & R2 & Hins & _) |(E1 & Hrej)].
        - exists u2. rewrite E1. do 3 f_equal. f_equal. destruct Her as [(es & Hg & -> & -> & ->) |(h & es1 & es2 & Hg & Hno & -> & ->)].
          + destruct (Hq2 eq_refl) as [Eb _]. destruct Hins as [(es' & Hg' & -> & _) |(h' & es' & Hg' & _)]; [exact Eb|].
            rewrite Eb in Hg'. rewrite list_lookup_insert in Hg' by (apply lookup_lt_Some in Hg; exact Hg). discriminate.
          + destruct Hins as [(es' & Hg' & _ & _) |(h' & es' & Hg' & Hst & _)].
            * assert (Hne : Z.of_nat q1 <> Z.of_nat (bkt k)).
              { assert (Hin : q1 ∈ gpos (h, es1 ++ (q1, w) :: es2)) by (unfold gpos; cbn [snd]; rewrite fmap_app; apply elem_of_app; right; left).
                pose proof (chain_range _ _ _ _ R _ _ _ Hg Hin). pose proof (head_range _ _ _ _ R _ _ Hg). lia. }
              specialize (Hq1 Hne). rewrite (u_occupied_nat _ _ _ (head_occ _ _ _ _ R1 _ _ Hg')) in Hq1. discriminate.
            * apply app_inj_tail in Hst. symmetry. apply Hst.
        - exfalso. destruct Hrej as [H|[H|H]].
          + destruct (gin (kf v) G1); [discriminate|contradiction].
          + pose proof (erased_content _ _ _ _ _ _ _ Her) as Hp. apply Permutation_length in Hp. cbn [length] in Hp. destruct (size_rep _ _ _ _ R) as [_ Hl]. lia.
          + destruct Her as [(es & Hg & -> & -> & ->) |(h & es1 & es2 & Hg & Hno & -> & ->)].
            * destruct (Hq2 eq_refl) as [_ Hne]. rewrite (excess_empty_rep _ _ _ _ R1), H in Hne. discriminate.
            * destruct st; discriminate.
      Qed.
    End at_state.
  End reachable.
End rep.
