(** The statements of UnorderedProps.v from the lemmas of UnorderedProofs.v. *)
From Verif Require Import Base Conc SlotModel Lifetime VectorModel BitModel HashProofs UnorderedModel UnorderedSpec UnorderedProofs CapacityProofs.

Lemma dup_count_distinct (bs : list nat) : (dup_count bs + length (remove_dups bs) = length bs)%nat.
Proof. induction bs as [|b bs IH]; [reflexivity|]. cbn [dup_count remove_dups length]. destruct (decide (b ∈ bs)); destruct (decide_rel _ b bs); cbn [length]; try contradiction; lia. Qed.
Lemma distinct_rev (bs : list nat) : length (remove_dups (rev bs)) = length (remove_dups bs).
Proof.
  apply Permutation_length, NoDup_Permutation; [apply NoDup_remove_dups|apply NoDup_remove_dups|]. intros x. rewrite !elem_of_remove_dups.
  rewrite !elem_of_list_In. symmetry. apply in_rev.
Qed.
Lemma distinct_inj (bs : list nat) : length (remove_dups (Z.of_nat <$> bs)) = length (remove_dups bs).
Proof.
  rewrite <- (fmap_length Z.of_nat (remove_dups bs)). apply Permutation_length, NoDup_Permutation; [apply NoDup_remove_dups|apply NoDup_fmap_2; [intros x y; lia|apply NoDup_remove_dups]|].
  intros x. rewrite elem_of_remove_dups, !elem_of_list_fmap. split; intros (y & -> & Hy); exists y; (split; [reflexivity|]); rewrite elem_of_remove_dups in *; exact Hy.
Qed.

Lemma rev_fmap {A B} (f : A -> B) l : f <$> rev l = rev (f <$> l).
Proof. apply map_rev. Qed.

Section seq.
  Context {K V : Type} (kf : V -> K) (hash : K -> Z) (keq : K -> K -> bool) (opt : bool) (ord : nat -> list nat).
  Context (Hk : key_equality keq) (Hh : hash_respects keq hash) (Ho : any_order ord).
  Context (bc E : nat) (Hs : sizes_ok bc E).
  Context (fuel : nat) (Hf : (2 <= fuel)%nat) (junk : list Z) (ops : list (uop K V)) (Hops : Forall (uop_ok (Z.of_nat bc)) ops).
  Let Hbc : (0 < bc)%nat. Proof using Hs. apply Hs. Qed.
  Let HE : (0 < E)%nat. Proof using Hs. apply Hs. Qed.
  Let Hmax : Z.of_nat (bc + E) <= INT_MAX. Proof using Hs. apply Hs. Qed.
  Let kr : forall a, keq a a = true. Proof using Hk. apply Hk. Qed.
  Let ks : forall a b, keq a b = true -> keq b a = true. Proof using Hk. apply Hk. Qed.
  Let kt : forall a b c, keq a b = true -> keq b c = true -> keq a c = true. Proof using Hk. apply Hk. Qed.

  Lemma runs_as_map : exists u0 u rs M (bucket : K -> Z), unordered_create ord junk (Z.of_nat bc) (Z.of_nat E) = Ret u0 /\
    u_run kf hash keq opt ord fuel u0 ops = Ret (u, rs) /\ (forall k, u_bucket hash u0 k = Ret (bucket k)) /\
    spec_urun kf keq bucket (Z.of_nat (bc + E)) [] ops rs M /\ keys_distinct kf keq M /\ u_valid kf hash keq ord u = Ret true /\
    (forall v, v ∈ M <-> exists p, u_value u p = Ret v).
  Proof using All.
    destruct (reach kf hash keq opt ord Ho kr ks kt Hh bc E Hbc HE Hmax fuel Hf junk ops Hops) as (u0 & u & rs & G & st & E0 & E1 & R0 & R & H).
    exists u0, u, rs, (G ≫= gvals), (fun k => Z.of_nat (bkt hash bc k)). split; [exact E0|]. split; [exact E1|]. split.
    { intros k. eapply (bucket_rep kf hash keq opt ord Ho kr ks kt Hh bc E Hbc HE Hmax). exact R0. }
    split; [exact H|]. split; [eapply (content_kd kf hash keq opt ord Ho kr ks kt Hh bc E Hbc HE Hmax); exact R|].
    split; [eapply (valid_rep kf hash keq opt ord Ho kr ks kt Hh bc E Hbc HE Hmax); exact R|].
    intros v. split.
    - intros Hv. apply elem_of_list_bind in Hv as (g & Hv & Hg). apply elem_of_list_lookup in Hg as [b Hg]. unfold gvals in Hv. apply elem_of_app in Hv as [Hv|Hv].
      + exists (Z.of_nat b). unfold u_value. erewrite zat_nat; [|eapply ur_head; [exact R|exact Hg]]. cbn [obind]. destruct g.1; cbn [olist] in Hv; [|inversion Hv]. apply elem_of_list_singleton in Hv as ->. reflexivity.
      + apply elem_of_list_fmap in Hv as ([p w] & -> & Hv). exists (Z.of_nat p). unfold u_value. erewrite zat_nat; [|eapply ur_chain; [exact R|exact Hg|exact Hv]]. reflexivity.
    - intros (p & Hp). unfold u_value, zat in Hp. destruct (0 <=? p); [|discriminate]. destruct (u_values u !! Z.to_nat p) as [[w|]|] eqn:Ev; try discriminate. injection Hp as ->.
      destruct (stored_in_bucket kf hash keq opt ord Ho kr ks kt Hh bc E Hbc HE Hmax _ _ _ _ _ _ R Ev) as (g & Hg & Hin). apply elem_of_list_bind. exists g. split; [|apply elem_of_list_lookup; eauto].
      unfold gvals. apply elem_of_app. destruct Hin as [[_ ->] |Hin]; [left; left|right; apply elem_of_list_fmap; exists (Z.to_nat p, v); auto].
  Qed.

  Section at_state.
    Context (u0 u : utab V) (rs : list (ures V)) (Hc : unordered_create ord junk (Z.of_nat bc) (Z.of_nat E) = Ret u0) (Hr : u_run kf hash keq opt ord fuel u0 ops = Ret (u, rs)).
    Definition s_range := range_enumerates kf hash keq opt ord Ho kr ks kt Hh bc E Hbc HE Hmax fuel Hf junk ops Hops u0 u rs Hc Hr.
    Definition s_rejected := insert_rejected kf hash keq opt ord Ho kr ks kt Hh bc E Hbc HE Hmax fuel Hf junk ops Hops u0 u rs Hc Hr.
    Definition s_size := size_bounded kf hash keq opt ord Ho kr ks kt Hh bc E Hbc HE Hmax fuel Hf junk ops Hops u0 u rs Hc Hr.
    Definition s_clear := clear_fresh kf hash keq opt ord Ho kr ks kt Hh bc E Hbc HE Hmax fuel Hf junk ops Hops u0 u rs Hc Hr.
    Definition s_life := lifetimes_rep kf hash keq opt ord Ho kr ks kt Hh bc E Hbc HE Hmax fuel Hf junk ops Hops u0 u rs Hc Hr.
    Definition s_erase k := erase_keeps kf hash keq opt ord Ho kr ks kt Hh bc E Hbc HE Hmax fuel Hf junk ops Hops u0 u rs k Hc Hr.

    (** the position freed by an erase goes to the next new key of that bucket (head of the bucket erased), or of any bucket with an
        occupied head (chain entry erased) *)
    Lemma s_reuse k b v bv q u' m : u_bucket hash u k = Ret b -> u_bucket hash u (kf v) = Ret bv ->
      u_find kf hash keq u k = Ret q -> q <> total_count u -> u_erase kf hash keq fuel u k = Ret (u', m) -> u_contains kf hash keq u' (kf v) = Ret false ->
      (q <> b -> u_occupied u' bv = Ret true) -> (q = b -> bv = b /\ v_empty (u_excess u') = false) ->
      exists u2, u_insert kf hash keq fuel u' v = Ret (u2, q, true).
    Proof using All.
      intros Eb Ebv Hq Hne He Hcn H1 H2. destruct (reach kf hash keq opt ord Ho kr ks kt Hh bc E Hbc HE Hmax fuel Hf junk ops Hops) as (u0' & u'' & rs' & G & st & F0 & F1 & _ & R & _).
      rewrite Hc in F0. injection F0 as <-. rewrite Hr in F1. injection F1 as <- <-.
      erewrite (bucket_rep kf hash keq opt ord Ho kr ks kt Hh bc E Hbc HE Hmax) in Eb by exact R. erewrite (bucket_rep kf hash keq opt ord Ho kr ks kt Hh bc E Hbc HE Hmax) in Ebv by exact R.
      injection Eb as <-. injection Ebv as <-.
      eapply (freed_reused kf hash keq opt ord Ho kr ks kt Hh bc E Hbc HE Hmax fuel Hf junk ops Hops u0 u rs Hc Hr k q v); eauto.
      intros Hx. destruct (H2 Hx). split; [lia|auto].
    Qed.
  End at_state.

  Lemma s_inserts (vs : list V) (bucket : K -> Z) u0 : unordered_create ord junk (Z.of_nat bc) (Z.of_nat E) = Ret u0 -> (forall k, u_bucket hash u0 k = Ret (bucket k)) ->
    keys_distinct kf keq vs -> (collisions (fun v => bucket (kf v)) vs < E)%nat ->
    exists u, u_run kf hash keq opt ord fuel u0 (UInsert <$> vs) = Ret (u, (fun v => UIns true (Some v)) <$> vs).
  Proof using Hk Hh Ho Hs Hf kr ks kt Hbc HE Hmax.
    intros Hc Hb Hkd Hcol. destruct (create_rep kf hash keq opt ord Ho kr ks kt Hh bc E Hbc HE Hmax junk) as (u0' & F0 & R & _). rewrite Hc in F0. injection F0 as <-.
    assert (Eb : forall k, bucket k = Z.of_nat (bkt hash bc k)).
    { intros k. specialize (Hb k). erewrite (bucket_rep kf hash keq opt ord Ho kr ks kt Hh bc E Hbc HE Hmax) in Hb by exact R. injection Hb as <-. reflexivity. }
    eapply (inserts_succeed kf hash keq opt ord Ho kr ks kt Hh bc E Hbc HE Hmax fuel Hf vs u0 _ _ [] R).
    - rewrite (G0_content bc). reflexivity.
    - intros b g Hg. apply lookup_replicate in Hg as [-> _]. split; [|reflexivity]. intros _ H. inversion H.
    - cbn. rewrite seq_length. lia.
    - exact Hkd.
    - rewrite app_nil_r. unfold collisions in Hcol.
      assert (Ev : (fun v => bucket (kf v)) <$> vs = Z.of_nat <$> ((fun v => bkt hash bc (kf v)) <$> vs)) by (rewrite <- list_fmap_compose; apply list_fmap_ext; intros i x _; apply Eb).
      rewrite Ev, distinct_inj in Hcol. pose proof (dup_count_distinct ((fun v => bkt hash bc (kf v)) <$> rev vs)) as Hd.
      rewrite !rev_fmap in Hd. rewrite rev_fmap. rewrite distinct_rev, rev_length, fmap_length in Hd. lia.
  Qed.
End seq.

Lemma s_created n : 0 < n <= 2 ^ 30 -> forall (V : Type) ord, any_order ord -> forall junk,
  exists k excess (u : utab V), 0 <= k <= 30 /\ unordered_create_for ord junk n = Ret u /\ u_bc u = 2 ^ k /\ bucket_count_for n = 2 ^ k /\ excess_count_for n = Ret excess /\
    total_count u = 2 ^ k + excess /\ n < total_count u.
Proof.
  intros Hn V ord Ho junk. destruct (sizes_for n Hn) as (k & x & Hk & Eb & Ex & Hx & Hlt & Hmax). exists k, x.
  assert (0 < 2 ^ k) by lia. destruct (create_rep (K:=unit) (V:=V) (fun _ => tt) (fun _ => 0) (fun _ _ => true) true ord Ho ltac:(reflexivity) ltac:(reflexivity) ltac:(reflexivity) ltac:(reflexivity)
     (Z.to_nat (2 ^ k)) (Z.to_nat x) ltac:(lia) ltac:(lia) ltac:(lia) junk) as (u & Eu & R & _).
  exists u. unfold unordered_create_for. rewrite (proj2 (Z.ltb_lt 0 n)) by lia. rewrite Ex. cbn [obind]. rewrite Eb.
  rewrite !Z2Nat.id in Eu by lia. split; [exact Hk|]. split; [exact Eu|]. split; [rewrite (ur_bc _ _ _ _ _ _ _ _ _ _ R); lia|]. split; [reflexivity|]. split; [reflexivity|].
  unfold total_count. rewrite (ur_lo _ _ _ _ _ _ _ _ _ _ R). lia.
Qed.
