(** The lists of an unordered container while one insert and one erase run: what the proofs of C68 need. *)
From Verif Require Import Base Conc SlotModel SlotSpec SlotProofs VectorModel VectorProofs VectorConcProofs UnorderedModel UnorderedSpec UnorderedProofs UConcModel UConcProofs UEraseModel UEraseProofs UMixVec.

Section shape.
  Context {K V : Type} (kf : V -> K) (hash : K -> Z) (keq : K -> K -> bool) (bc E : nat).
  Hypothesis HP : key_equality keq /\ hash_respects keq hash /\ sizes_ok bc E.
  Notation n := (bc + E)%nat.
  Notation bkt := (bkt hash bc).
  Implicit Types (s : cshared V) (G : list (option V * list (nat * V))) (F D L : list nat) (a b : qthread Z).

  Lemma mx_bkt k : (bkt k < bc)%nat.
  Proof using HP. destruct HP as ((K1 & K2 & K3) & Hh & (S1 & S2 & S3)). exact (proj2 (bucket_of_bkt hash keq bc E K1 K2 K3 Hh S1 S2 S3 k)). Qed.
  Lemma mx_keq x y : keq x y = true -> bkt x = bkt y.
  Proof using HP. destruct HP as (_ & Hh & _). intros H. unfold UnorderedProofs.bkt. rewrite (Hh _ _ H). reflexivity. Qed.
  Lemma mx_bucket k : bucket_of hash bc k = Some (bkt k).
  Proof using HP. destruct HP as ((K1 & K2 & K3) & Hh & (S1 & S2 & S3)). exact (proj1 (bucket_of_bkt hash keq bc E K1 K2 K3 Hh S1 S2 S3 k)). Qed.
  Lemma mx_sym x y : keq x y = keq y x.
  Proof using HP. destruct HP as ((_ & K2 & _) & _). destruct (keq x y) eqn:E1, (keq y x) eqn:E2; auto; [apply K2 in E1|apply K2 in E2]; congruence. Qed.

  (** the list of a bucket: its value and the entries behind it *)
  Definition gb G (c : nat) : option V * list (nat * V) := default (None, []) (G !! c).
  Definition lst_of G (c : nat) : list nat := c :: gpos (gb G c).
  Definition ents_of (c : nat) (g : option V * list (nat * V)) : list (nat * V) := (match g.1 with Some v => [(c, v)] | None => [] end) ++ g.2.
  Definition ents G (c : nat) : list (nat * V) := ents_of c (gb G c).
  Lemma gb_some G c : (c < length G)%nat -> G !! c = Some (gb G c).
  Proof. intros H. unfold gb. destruct (lookup_lt_is_Some_2 G c H) as [g ->]. reflexivity. Qed.
  Lemma gb_same G c g : (c < length G)%nat -> gb (<[c := g]> G) c = g.
  Proof. intros H. unfold gb. rewrite list_lookup_insert by exact H. reflexivity. Qed.
  Lemma gb_other G c c' g : c <> c' -> gb (<[c := g]> G) c' = gb G c'.
  Proof. intros H. unfold gb. rewrite list_lookup_insert_ne by exact H. reflexivity. Qed.
  Lemma ents_vals c g : (ents_of c g).*2 = gvals g.
  Proof. unfold ents_of, gvals. destruct g.1; reflexivity. Qed.
  Lemma ents_val G c x w : (x, w) ∈ ents G c -> w ∈ gvals (gb G c).
  Proof. intros H. rewrite <- (ents_vals c). apply elem_of_list_fmap. exists (x, w). auto. Qed.
  Lemma ents_pos G c x w : (x, w) ∈ ents G c -> x ∈ lst_of G c.
  Proof.
    unfold ents, ents_of, lst_of, gpos. intros H. apply elem_of_app in H as [H|H].
    - destruct (gb G c).1; [apply elem_of_list_singleton in H; injection H as -> ->; left|inversion H].
    - right. apply elem_of_list_fmap. exists (x, w). auto.
  Qed.
  Lemma ents_excess G c x : x ∈ gpos (gb G c) -> exists w, (x, w) ∈ ents G c.
  Proof. unfold gpos. intros H. apply elem_of_list_fmap in H as ([y w] & -> & H). exists w. apply elem_of_app. right. exact H. Qed.
  Lemma ents_head G c w : (gb G c).1 = Some w -> (c, w) ∈ ents G c.
  Proof. intros H. unfold ents, ents_of. rewrite H. left. Qed.

  Record shape s G F D L (m : Z) a b : Prop := {
    sh_lv : length (c_values s) = n;
    sh_lf : length (c_off s) = n;
    sh_lo : length (c_occ s) = n;
    sh_ll : length (c_locks s) = n;
    sh_lg : length G = bc;
    sh_perm : (G ≫= gpos) ++ D ++ F ≡ₚ seq bc E;
    sh_head : forall c, (c < bc)%nat -> c_occ s !! c = Some (is_some (gb G c).1);
    sh_ent : forall c x w, (c < bc)%nat -> (x, w) ∈ ents G c -> c_values s !! x = Some (Some w) /\ c_occ s !! x = Some true;
    sh_link : forall c, (c < bc)%nat -> linked (c_off s) c (gpos (gb G c));
    sh_free : forall x, x ∈ F -> c_occ s !! x = Some false;
    sh_val : forall x, c_occ s !! x = Some true -> exists w, c_values s !! x = Some (Some w);
    sh_off : forall x o, c_off s !! x = Some o -> 0 <= Z.of_nat x + o < Z.of_nat n;
    sh_lock : forall x, lk (c_locks s) x = true <-> x ∈ L;
    sh_lnd : NoDup L;
    sh_count : c_count s = Z.of_nat (length (G ≫= gvals)) + m;
    sh_bkt : forall c x w, (c < bc)%nat -> (x, w) ∈ ents G c -> bkt (kf w) = c;
    sh_kd : forall c, (c < bc)%nat -> keys_distinct kf keq (gvals (gb G c));
    sh_vec : pair E F (c_ex s) a b;
    sh_pos : 0 <= q_c (c_ex s)
  }.

  (** *** facts *)
  Section facts.
    Context s G F D L m a b (I : shape s G F D L m a b).
    Lemma sf_gb c : (c < bc)%nat -> G !! c = Some (gb G c).
    Proof using I HP. intros H. apply gb_some. rewrite (sh_lg _ _ _ _ _ _ _ _ I). exact H. Qed.
    Lemma sf_nodup : NoDup ((G ≫= gpos) ++ D ++ F).
    Proof using I HP. rewrite (sh_perm _ _ _ _ _ _ _ _ I). apply NoDup_seq. Qed.
    Lemma sf_range x : x ∈ (G ≫= gpos) ++ D ++ F -> (bc <= x < n)%nat.
    Proof using I HP. rewrite (sh_perm _ _ _ _ _ _ _ _ I). intros H. apply elem_of_seq in H. lia. Qed.
    Lemma sf_in c x : (c < bc)%nat -> x ∈ gpos (gb G c) -> x ∈ G ≫= gpos.
    Proof using I HP. intros H Hx. apply elem_of_list_bind. exists (gb G c). split; [exact Hx|]. eapply elem_of_list_lookup_2. apply sf_gb. exact H. Qed.
    Lemma sf_chain c x : (c < bc)%nat -> x ∈ gpos (gb G c) -> (bc <= x < n)%nat.
    Proof using I HP. intros H Hx. apply sf_range. apply elem_of_app. left. eapply sf_in; eauto. Qed.
    Lemma sf_node c x : (c < bc)%nat -> x ∈ lst_of G c -> (x < n)%nat.
    Proof using I HP. intros H Hx. apply elem_of_cons in Hx as [-> |Hx]; [lia|]. pose proof (sf_chain c x H Hx). lia. Qed.
    Lemma sf_split c : (c < bc)%nat -> exists rest, G ≫= gpos ≡ₚ gpos (gb G c) ++ rest /\ (forall g, <[c := g]> G ≫= gpos ≡ₚ gpos g ++ rest).
    Proof using I HP. intros H. destruct (bind_split gpos G c _ (sf_gb c H)) as (rest & E1 & E2 & _). eauto. Qed.
    Lemma sf_vsplit c : (c < bc)%nat -> exists rest, G ≫= gvals ≡ₚ gvals (gb G c) ++ rest /\ (forall g, <[c := g]> G ≫= gvals ≡ₚ gvals g ++ rest).
    Proof using I HP. intros H. destruct (bind_split gvals G c _ (sf_gb c H)) as (rest & E1 & E2 & _). eauto. Qed.
    Lemma sf_chain_nodup c : (c < bc)%nat -> NoDup (lst_of G c).
    Proof using I HP.
      intros H. apply NoDup_cons. split; [intros Hc; pose proof (sf_chain c c H Hc); lia|].
      pose proof sf_nodup as ND. apply NoDup_app in ND as (ND & _ & _). destruct (sf_split c H) as (rest & E1 & _). rewrite E1 in ND. apply NoDup_app in ND. tauto.
    Qed.
    Lemma sf_same c c' x : (c < bc)%nat -> (c' < bc)%nat -> x ∈ lst_of G c -> x ∈ lst_of G c' -> c = c'.
    Proof using I HP.
      intros H H' Hx Hx'. destruct (decide (c = c')) as [|Hne]; [assumption|exfalso]. apply elem_of_cons in Hx as [-> |Hx]; apply elem_of_cons in Hx' as [Hx'|Hx'].
      - congruence.
      - pose proof (sf_chain c' c H' Hx'). lia.
      - subst. pose proof (sf_chain c c' H Hx). lia.
      - pose proof sf_nodup as ND. apply NoDup_app in ND as (ND & _ & _). destruct (bind_split gpos G c _ (sf_gb c H)) as (rest & E1 & _ & E3).
        rewrite E1 in ND. apply NoDup_app in ND as (_ & ND & _). apply (ND x Hx). eapply E3; [|apply (sf_gb c' H')|exact Hx']. congruence.
    Qed.
    (** entries outside the lists *)
    Lemma sf_out x c : (c < bc)%nat -> (bc <= x)%nat -> x ∉ G ≫= gpos -> x ∉ lst_of G c.
    Proof using I HP. intros H Hx Hn Hc. apply elem_of_cons in Hc as [-> |Hc]; [lia|]. apply Hn. eapply sf_in; eauto. Qed.
    Lemma sf_df x : x ∈ D ++ F -> (bc <= x < n)%nat /\ x ∉ G ≫= gpos.
    Proof using I HP.
      intros H. split; [apply sf_range; apply elem_of_app; auto|]. intros Hc. pose proof sf_nodup as ND. apply NoDup_app in ND as (_ & ND & _). exact (ND x Hc H).
    Qed.
    Lemma sf_d x : x ∈ D -> (bc <= x < n)%nat /\ x ∉ G ≫= gpos.
    Proof using I HP. intros H. apply sf_df. apply elem_of_app. auto. Qed.
    Lemma sf_d_free x : x ∈ D -> x ∉ F.
    Proof using I HP. intros H Hf. pose proof sf_nodup as ND. apply NoDup_app in ND as (_ & _ & ND). apply NoDup_app in ND as (_ & ND & _). exact (ND x H Hf). Qed.
    Lemma sf_ents_node c x w : (c < bc)%nat -> (x, w) ∈ ents G c -> (x < n)%nat.
    Proof using I HP. intros H Hx. eapply sf_node; [exact H|]. eapply ents_pos. exact Hx. Qed.
    Lemma sf_lock_lt x : x ∈ L -> (x < n)%nat.
    Proof using I HP. intros H. apply (sh_lock _ _ _ _ _ _ _ _ I) in H. unfold lk in H. destruct (c_locks s !! x) as [o|] eqn:Ho; [|discriminate]. apply lookup_lt_Some in Ho. rewrite (sh_ll _ _ _ _ _ _ _ _ I) in Ho. exact Ho. Qed.
    Lemma sf_lock_at x : (x < n)%nat -> exists o : bool, c_locks s !! x = Some o /\ (o = true <-> x ∈ L).
    Proof using I HP. intros H. destruct (lookup_lt_is_Some_2 (c_locks s) x) as [o Ho]; [rewrite (sh_ll _ _ _ _ _ _ _ _ I); exact H|]. exists o. split; [exact Ho|]. rewrite <- (sh_lock _ _ _ _ _ _ _ _ I). unfold lk. rewrite Ho. reflexivity. Qed.
    Lemma sf_occ_at x : (x < n)%nat -> exists o : bool, c_occ s !! x = Some o.
    Proof using I HP. intros H. apply lookup_lt_is_Some_2. rewrite (sh_lo _ _ _ _ _ _ _ _ I). exact H. Qed.
    Lemma sf_off_at x : (x < n)%nat -> exists o, c_off s !! x = Some o.
    Proof using I HP. intros H. apply lookup_lt_is_Some_2. rewrite (sh_lf _ _ _ _ _ _ _ _ I). exact H. Qed.
    Lemma sf_val_at x : (x < n)%nat -> exists o, c_values s !! x = Some o.
    Proof using I HP. intros H. apply lookup_lt_is_Some_2. rewrite (sh_lv _ _ _ _ _ _ _ _ I). exact H. Qed.
    Lemma sf_ents_fun c c' x w w' : (c < bc)%nat -> (c' < bc)%nat -> (x, w) ∈ ents G c -> (x, w') ∈ ents G c' -> w = w'.
    Proof using I HP. intros H H' Hw Hw'. destruct (sh_ent _ _ _ _ _ _ _ _ I c x w H Hw) as [E1 _]. destruct (sh_ent _ _ _ _ _ _ _ _ I c' x w' H' Hw') as [E2 _]. congruence. Qed.
    Lemma sf_vals w : w ∈ G ≫= gvals <-> exists c x, (c < bc)%nat /\ (x, w) ∈ ents G c.
    Proof using I HP.
      split.
      - intros H. apply elem_of_list_bind in H as (g & Hw & Hg). apply elem_of_list_lookup in Hg as [c Hc]. pose proof (lookup_lt_Some _ _ _ Hc) as Hlt. rewrite (sh_lg _ _ _ _ _ _ _ _ I) in Hlt.
        exists c. rewrite (sf_gb c Hlt) in Hc. injection Hc as <-. rewrite <- (ents_vals c) in Hw. apply elem_of_list_fmap in Hw as ([x w'] & -> & Hx). exists x. auto.
      - intros (c & x & Hc & Hx). apply elem_of_list_bind. exists (gb G c). split; [eapply ents_val; exact Hx|]. eapply elem_of_list_lookup_2. apply sf_gb. exact Hc.
    Qed.
    (** a key is in the table exactly if an entry of its bucket has it *)
    Lemma sf_holds k : holds kf keq (G ≫= gvals) k <-> exists x w, (x, w) ∈ ents G (bkt k) /\ keq (kf w) k = true.
    Proof using I HP.
      split.
      - intros (w & Hw & Hk). apply sf_vals in Hw as (c & x & Hc & Hx). assert (c = bkt k) as ->. { rewrite <- (sh_bkt _ _ _ _ _ _ _ _ I c x w Hc Hx). apply mx_keq. exact Hk. } eauto.
      - intros (x & w & Hx & Hk). exists w. split; [|exact Hk]. apply sf_vals. exists (bkt k), x. split; [apply mx_bkt|exact Hx].
    Qed.
    Lemma sf_sizes : (length (G ≫= gpos) + length D + length F = E)%nat /\ (length (G ≫= gpos) <= length (G ≫= gvals))%nat.
    Proof using I HP.
      split.
      - pose proof (Permutation_length (sh_perm _ _ _ _ _ _ _ _ I)) as H. rewrite !app_length, seq_length in H. lia.
      - clear. induction G as [|g l IH]; [reflexivity|]. cbn [mbind list_bind]. rewrite !app_length. unfold gvals at 1, gpos at 1. rewrite app_length, !fmap_length. lia.
    Qed.
    Lemma sf_kd : keys_distinct kf keq (G ≫= gvals).
    Proof using I HP.
      destruct HP as ((K1 & K2 & K3) & Hh & (S1 & S2 & S3)).
      refine (content_kd_of kf hash keq true (seq 0) (fun n => reflexivity _) K1 K2 K3 Hh bc E S1 S2 S3 G _ _).
      - intros c g v Hc Hv. pose proof (lookup_lt_Some _ _ _ Hc) as Hlt. rewrite (sh_lg _ _ _ _ _ _ _ _ I) in Hlt. rewrite (sf_gb c Hlt) in Hc. injection Hc as <-. rewrite <- (ents_vals c) in Hv. apply elem_of_list_fmap in Hv as ([x w'] & -> & Hx). exact (sh_bkt _ _ _ _ _ _ _ _ I c x w' Hlt Hx).
      - intros c g Hc. pose proof (lookup_lt_Some _ _ _ Hc) as Hlt. rewrite (sh_lg _ _ _ _ _ _ _ _ I) in Hlt. rewrite (sf_gb c Hlt) in Hc. injection Hc as <-. exact (sh_kd _ _ _ _ _ _ _ _ I c Hlt).
    Qed.
  End facts.

  (** *** steps *)
  Lemma sh_re s G F D L m a b D' L' m' : shape s G F D L m a b -> D' ≡ₚ D -> L' ≡ₚ L -> m' = m -> shape s G F D' L' m' a b.
  Proof. intros I HD HL ->. destruct I. split; auto; [rewrite HD; assumption|intros x; rewrite HL; auto|rewrite HL; assumption]. Qed.
  Lemma sh_lock_on s G F D L m a b x : shape s G F D L m a b -> (x < n)%nat -> x ∉ L -> shape (put_lock s x true) G F D (x :: L) m a b.
  Proof.
    intros I Hx Hn. pose proof I as I0. destruct I. split; auto; cbn [put_lock c_values c_off c_occ c_locks c_count c_ex]; auto.
    - rewrite insert_length. assumption.
    - intros y. rewrite lk_insert by lia. rewrite elem_of_cons. destruct (decide (y = x)) as [-> |Hne]; [tauto|]. rewrite sh_lock0. split; [auto|intros [?|?]; [contradiction|assumption]].
    - apply NoDup_cons. auto.
  Qed.
  Lemma sh_lock_off s G F D L m a b x L' : shape s G F D L m a b -> L ≡ₚ x :: L' -> shape (put_lock s x false) G F D L' m a b.
  Proof using HP.
    intros I HL. assert (Hx : (x < n)%nat) by (apply (sf_lock_lt _ _ _ _ _ _ _ _ I); rewrite HL; left). destruct I. rewrite HL in sh_lnd0. apply NoDup_cons in sh_lnd0 as [Hn ND]. split; auto; cbn [put_lock c_values c_off c_occ c_locks c_count c_ex]; auto.
    - rewrite insert_length. assumption.
    - intros y. rewrite lk_insert by lia. destruct (decide (y = x)) as [-> |Hne]; [split; [discriminate|contradiction]|]. rewrite sh_lock0, HL, elem_of_cons. tauto.
  Qed.
  Lemma sh_cnt s G F D L m a b d : shape s G F D L m a b -> shape (put_count s (c_count s + d)) G F D L (m + d) a b.
  Proof. intros I. destruct I. split; auto. cbn [put_count c_count]. lia. Qed.
  Lemma sh_put_value s G F D L m a b x v : shape s G F D L m a b -> (forall c w, (c < bc)%nat -> (x, w) ∉ ents G c) -> shape (put_value s x (Some v)) G F D L m a b.
  Proof.
    intros I Hx. destruct I. split; auto; cbn [put_value c_values c_off c_occ c_locks c_count c_ex]; auto.
    - rewrite insert_length. assumption.
    - intros c y w Hc Hy. rewrite list_lookup_insert_ne; [eauto|]. intros ->. exact (Hx c w Hc Hy).
    - intros y Hy. destruct (sh_val0 y Hy) as [w Hw]. destruct (decide (x = y)) as [-> |Hne]; [exists v; apply list_lookup_insert; apply lookup_lt_Some in Hw; exact Hw|]. exists w. rewrite list_lookup_insert_ne by exact Hne. exact Hw.
  Qed.
  Lemma sh_put_off s G F D L m a b x : shape s G F D L m a b -> x ∈ D -> shape (put_off s x 0) G F D L m a b.
  Proof using HP.
    intros I Hx. destruct (sf_d _ _ _ _ _ _ _ _ I x Hx) as [Hr Hn]. pose proof I as I0. destruct I. split; auto; cbn [put_off c_values c_off c_occ c_locks c_count c_ex]; auto.
    - rewrite insert_length. assumption.
    - intros c Hc. apply linked_ne; [|auto]. exact (sf_out _ _ _ _ _ _ _ _ I0 x c Hc ltac:(lia) Hn).
    - intros y o Hy. apply list_lookup_insert_Some in Hy as [(-> & <- & _)|[_ Hy]]; [lia|eauto].
  Qed.
  Lemma sh_put_occ s G F D L m a b x (o : bool) : shape s G F D L m a b -> x ∈ D -> (o = true -> exists w, c_values s !! x = Some (Some w)) -> shape (put_occ s x o) G F D L m a b.
  Proof using HP.
    intros I Hx Ho. destruct (sf_d _ _ _ _ _ _ _ _ I x Hx) as [Hr Hn]. pose proof I as I0. destruct I. split; auto; cbn [put_occ c_values c_off c_occ c_locks c_count c_ex]; auto.
    - rewrite insert_length. assumption.
    - intros c Hc. rewrite list_lookup_insert_ne by lia. auto.
    - intros c y w Hc Hy. rewrite list_lookup_insert_ne; [eauto|]. intros ->. eapply (sf_out _ _ _ _ _ _ _ _ I0 y c Hc); [lia|exact Hn|]. eapply ents_pos. exact Hy.
    - intros y Hy. rewrite list_lookup_insert_ne; [auto|]. intros ->. exact (sf_d_free _ _ _ _ _ _ _ _ I0 y Hx Hy).
    - intros y Hy. apply list_lookup_insert_Some in Hy as [(-> & E1 & _)|[_ Hy]]; [auto|eauto].
  Qed.
  Lemma sh_ex s G F D L m a b y F' D' a' b' : shape s G F D L m a b -> pair E F' y a' b' -> 0 <= q_c y -> D' ++ F' ≡ₚ D ++ F -> (forall x, x ∈ F' -> c_occ s !! x = Some false) -> shape (put_ex s y) G F' D' L m a' b'.
  Proof. intros I HV Hy HD HF. destruct I. split; auto. rewrite HD. assumption. Qed.

  (** the values in the table after one list changes *)
  Lemma vals_upd s G F D L m a b c g : shape s G F D L m a b -> (c < bc)%nat -> exists rest, G ≫= gvals ≡ₚ gvals (gb G c) ++ rest /\ <[c := g]> G ≫= gvals ≡ₚ gvals g ++ rest.
  Proof using HP. intros I Hc. destruct (sf_vsplit _ _ _ _ _ _ _ _ I c Hc) as (rest & E1 & E2). exists rest. split; [exact E1|apply E2]. Qed.
  Lemma ents_upd G c c' g : (c < length G)%nat -> ents (<[c := g]> G) c' = if decide (c = c') then ents_of c g else ents G c'.
  Proof. intros Hc. unfold ents. destruct (decide (c = c')) as [<- |Hne]; [rewrite gb_same by exact Hc; reflexivity|rewrite gb_other by exact Hne; reflexivity]. Qed.

  (** a list changes: what is the same for all four ways *)
  Lemma sh_list s G F D L m a b s' c g D' m' : shape s G F D L m a b -> (c < bc)%nat ->
    length (c_off s') = n -> length (c_occ s') = n -> c_values s' = c_values s -> c_locks s' = c_locks s -> c_count s' = c_count s -> c_ex s' = c_ex s ->
    gpos g ++ D' ≡ₚ gpos (gb G c) ++ D ->
    c_occ s' !! c = Some (is_some g.1) ->
    (forall x, x <> c -> c_occ s' !! x = c_occ s !! x) ->
    (forall x w, (x, w) ∈ ents_of c g -> c_values s !! x = Some (Some w) /\ c_occ s' !! x = Some true /\ bkt (kf w) = c) ->
    (c_occ s' !! c = Some true -> exists w, c_values s !! c = Some (Some w)) ->
    linked (c_off s') c (gpos g) ->
    (forall x, x ∉ lst_of G c -> c_off s' !! x = c_off s !! x) ->
    (forall x o, c_off s' !! x = Some o -> 0 <= Z.of_nat x + o < Z.of_nat n) ->
    keys_distinct kf keq (gvals g) ->
    Z.of_nat (length (gvals (gb G c))) + m = Z.of_nat (length (gvals g)) + m' ->
    shape s' (<[c := g]> G) F D' L m' a b.
  Proof using HP.
    intros I Hc L1 L2 Ev El Ec Ex HD Ho Ho' He Hov Hl Hl' Hoff Hk Hm.
    assert (HcG : (c < length G)%nat) by (rewrite (sh_lg _ _ _ _ _ _ _ _ I); exact Hc).
    assert (Hlk : forall P p, linked (c_off s) p P -> (forall x, x ∈ p :: P -> c_off s' !! x = c_off s !! x) -> linked (c_off s') p P).
    { intros P. induction P as [|q P IH]; intros p; cbn [linked]; [intros H0 H1; rewrite H1 by left; exact H0|]. intros (H1 & H2 & H3) H4. split; [exact H1|]. split; [rewrite H4 by left; exact H2|]. apply IH; [exact H3|]. intros x Hx. apply H4. right. exact Hx. }
    split; rewrite ?Ev, ?El, ?Ec, ?Ex; try solve [apply I]; auto.
    - rewrite insert_length. apply I.
    - destruct (sf_split _ _ _ _ _ _ _ _ I c Hc) as (rest & E1 & E2). rewrite E2, <- (sh_perm _ _ _ _ _ _ _ _ I), E1.
      rewrite !app_assoc. apply Permutation_app; [|reflexivity]. rewrite <- !app_assoc. rewrite (Permutation_app_comm rest D'), (Permutation_app_comm rest D). rewrite !app_assoc. apply Permutation_app; [exact HD|reflexivity].
    - intros c' Hc'. destruct (decide (c = c')) as [<- |Hne]; [rewrite gb_same by exact HcG; exact Ho|rewrite gb_other by exact Hne]. rewrite Ho' by congruence. apply (sh_head _ _ _ _ _ _ _ _ I c' Hc').
    - intros c' x w Hc' Hx. rewrite ents_upd in Hx by exact HcG. destruct (decide (c = c')) as [<- |Hne]; [destruct (He x w Hx) as (H1 & H2 & _); auto|].
      destruct (sh_ent _ _ _ _ _ _ _ _ I c' x w Hc' Hx) as [H1 H2]. split; [exact H1|]. rewrite Ho'; [exact H2|]. intros ->. apply Hne. eapply (sf_same _ _ _ _ _ _ _ _ I c c' c Hc Hc'); [left|eapply ents_pos; exact Hx].
    - intros c' Hc'. destruct (decide (c = c')) as [<- |Hne]; [rewrite gb_same by exact HcG; exact Hl|rewrite gb_other by exact Hne].
      apply Hlk; [exact (sh_link _ _ _ _ _ _ _ _ I c' Hc')|]. intros x Hx. apply Hl'. intros Hx'. apply Hne. exact (sf_same _ _ _ _ _ _ _ _ I c c' x Hc Hc' Hx' Hx).
    - intros x Hx. rewrite Ho'; [exact (sh_free _ _ _ _ _ _ _ _ I x Hx)|]. intros ->. destruct (sf_df _ _ _ _ _ _ _ _ I c) as [H0 _]; [apply elem_of_app; auto|lia].
    - intros x Hx. destruct (decide (x = c)) as [-> |Hne]; [auto|]. rewrite Ho' in Hx by exact Hne. exact (sh_val _ _ _ _ _ _ _ _ I x Hx).
    - rewrite (sh_count _ _ _ _ _ _ _ _ I). destruct (vals_upd _ _ _ _ _ _ _ _ c g I Hc) as (rest & E1 & E2). rewrite E1, E2, !app_length. lia.
    - intros c' x w Hc' Hx. rewrite ents_upd in Hx by exact HcG. destruct (decide (c = c')) as [<- |Hne]; [apply (He x w Hx)|exact (sh_bkt _ _ _ _ _ _ _ _ I c' x w Hc' Hx)].
    - intros c' Hc'. destruct (decide (c = c')) as [<- |Hne]; [rewrite gb_same by exact HcG; exact Hk|rewrite gb_other by exact Hne; exact (sh_kd _ _ _ _ _ _ _ _ I c' Hc')].
  Qed.

  Lemma mx_kd_perm M M' : M ≡ₚ M' -> keys_distinct kf keq M -> keys_distinct kf keq M'.
  Proof using HP. destruct HP as ((K1 & K2 & K3) & Hh & (S1 & S2 & S3)). exact (kd_perm_iff kf hash keq true (seq 0) (fun n => reflexivity _) K1 K2 K3 Hh bc E S1 S2 S3 M M'). Qed.
  Lemma mx_kd_cons v M : keys_distinct kf keq (v :: M) <-> (forall w, w ∈ M -> keq (kf w) (kf v) = false) /\ keys_distinct kf keq M.
  Proof using HP. destruct HP as ((K1 & K2 & K3) & Hh & (S1 & S2 & S3)). exact (kd_cons kf hash keq true (seq 0) (fun n => reflexivity _) K1 K2 K3 Hh bc E S1 S2 S3 v M). Qed.

  Definition absent G (k : K) : Prop := forall x w, (x, w) ∈ ents G (bkt k) -> keq (kf w) k = false.
  Lemma absent_vals G k w : absent G k -> w ∈ gvals (gb G (bkt k)) -> keq (kf w) k = false.
  Proof. intros H Hw. rewrite <- (ents_vals (bkt k)) in Hw. apply elem_of_list_fmap in Hw as ([x w'] & -> & Hx). exact (H x w' Hx). Qed.

  Lemma sh_set_head s G F D L m a b v : let c := bkt (kf v) in shape s G F D L m a b -> (gb G c).1 = None -> c_values s !! c = Some (Some v) -> absent G (kf v) ->
    shape (put_occ s c true) (<[c := (Some v, (gb G c).2)]> G) F D L (m - 1) a b.
  Proof using HP.
    intros c I Hn Hv Ha. assert (Hc : (c < bc)%nat) by apply mx_bkt. assert (Hlo : (c < length (c_occ s))%nat) by (rewrite (sh_lo _ _ _ _ _ _ _ _ I); lia).
    apply (sh_list _ _ _ _ _ _ _ _ _ c _ D _ I Hc); cbn [put_occ c_values c_off c_occ c_locks c_count c_ex]; auto; try solve [apply I].
    - rewrite insert_length. apply I.
    - rewrite list_lookup_insert by exact Hlo. reflexivity.
    - intros x Hx. rewrite list_lookup_insert_ne by congruence. reflexivity.
    - intros x w Hx. unfold ents_of in Hx. cbn [fst snd] in Hx. apply elem_of_app in Hx as [Hx|Hx].
      + apply elem_of_list_singleton in Hx. injection Hx as -> ->. rewrite list_lookup_insert by exact Hlo. auto.
      + assert (Hx' : (x, w) ∈ ents G c) by (apply elem_of_app; right; exact Hx). destruct (sh_ent _ _ _ _ _ _ _ _ I c x w Hc Hx') as [H1 H2]. split; [exact H1|]. split; [|exact (sh_bkt _ _ _ _ _ _ _ _ I c x w Hc Hx')].
        rewrite list_lookup_insert_ne; [exact H2|]. intros <-. pose proof (sh_head _ _ _ _ _ _ _ _ I c Hc) as H3. rewrite Hn, H2 in H3. discriminate.
    - eauto.
    - exact (sh_link _ _ _ _ _ _ _ _ I c Hc).
    - unfold gvals. cbn [fst snd olist app]. apply mx_kd_cons. split.
      + intros w Hw. apply (absent_vals G); [exact Ha|]. unfold gvals. apply elem_of_app. right. exact Hw.
      + pose proof (sh_kd _ _ _ _ _ _ _ _ I c Hc) as H. unfold gvals in H. rewrite Hn in H. exact H.
    - unfold gvals. rewrite Hn. cbn [fst snd olist app length]. lia.
  Qed.
  Lemma sh_link_in s G F D L m a b v e p D' : let c := bkt (kf v) in shape s G F D L m a b -> D ≡ₚ p :: D' -> e = lend c (gpos (gb G c)) -> c_off s !! p = Some 0 ->
    c_values s !! p = Some (Some v) -> c_occ s !! p = Some true -> absent G (kf v) ->
    shape (put_off s e (Z.of_nat p - Z.of_nat e)) (<[c := ((gb G c).1, (gb G c).2 ++ [(p, v)])]> G) F D' L (m - 1) a b.
  Proof using HP.
    intros c I HD -> Hop Hv Ho Ha. assert (Hc : (c < bc)%nat) by apply mx_bkt. destruct (sf_d _ _ _ _ _ _ _ _ I p) as [Hpr Hpn]; [rewrite HD; left|].
    pose proof (sf_out _ _ _ _ _ _ _ _ I p c Hc ltac:(lia) Hpn) as Hpc. pose proof (sf_chain_nodup _ _ _ _ _ _ _ _ I c Hc) as ND.
    set (e := lend c (gpos (gb G c))). assert (Hel : e ∈ lst_of G c) by apply lend_elem. pose proof (sf_node _ _ _ _ _ _ _ _ I c e Hc Hel) as Hen.
    assert (Egp : gpos ((gb G c).1, (gb G c).2 ++ [(p, v)]) = gpos (gb G c) ++ [p]) by (unfold gpos; cbn [snd]; rewrite fmap_app; reflexivity).
    apply (sh_list _ _ _ _ _ _ _ _ _ c _ D' _ I Hc); cbn [put_off c_values c_off c_occ c_locks c_count c_ex]; auto; try solve [apply I].
    - rewrite insert_length. apply I.
    - rewrite Egp, HD, <- app_assoc. reflexivity.
    - exact (sh_head _ _ _ _ _ _ _ _ I c Hc).
    - intros x w Hx. unfold ents_of in Hx. cbn [fst snd] in Hx. rewrite app_assoc in Hx. apply elem_of_app in Hx as [Hx|Hx].
      + destruct (sh_ent _ _ _ _ _ _ _ _ I c x w Hc Hx) as [H1 H2]. split; [exact H1|]. split; [exact H2|exact (sh_bkt _ _ _ _ _ _ _ _ I c x w Hc Hx)].
      + apply elem_of_list_singleton in Hx. injection Hx as -> ->. auto.
    - rewrite Egp. apply linked_snoc; auto. exact (sh_link _ _ _ _ _ _ _ _ I c Hc).
    - intros x Hx. rewrite list_lookup_insert_ne; [reflexivity|]. intros ->. contradiction.
    - intros x o Hx. apply list_lookup_insert_Some in Hx as [(-> & <- & _)|[_ Hx]]; [lia|exact (sh_off _ _ _ _ _ _ _ _ I x o Hx)].
    - apply (mx_kd_perm (v :: gvals (gb G c))).
      + unfold gvals. cbn [fst snd]. rewrite fmap_app, app_assoc. cbn. rewrite <- Permutation_cons_append. reflexivity.
      + apply mx_kd_cons. split; [intros w Hw; exact (absent_vals G _ w Ha Hw)|exact (sh_kd _ _ _ _ _ _ _ _ I c Hc)].
    - unfold gvals. cbn [fst snd]. rewrite fmap_app, !app_length. cbn. lia.
  Qed.
  Lemma sh_reset_head s G F D L m a b c w : shape s G F D L m a b -> (c < bc)%nat -> (gb G c).1 = Some w ->
    shape (put_occ s c false) (<[c := (None, (gb G c).2)]> G) F D L (m + 1) a b.
  Proof using HP.
    intros I Hc Hw. assert (Hlo : (c < length (c_occ s))%nat) by (rewrite (sh_lo _ _ _ _ _ _ _ _ I); lia).
    apply (sh_list _ _ _ _ _ _ _ _ _ c _ D _ I Hc); cbn [put_occ c_values c_off c_occ c_locks c_count c_ex]; auto; try solve [apply I].
    - rewrite insert_length. apply I.
    - rewrite list_lookup_insert by exact Hlo. reflexivity.
    - intros x Hx. rewrite list_lookup_insert_ne by congruence. reflexivity.
    - intros x w' Hx. unfold ents_of in Hx. cbn [fst snd app] in Hx.
      assert (Hx' : (x, w') ∈ ents G c) by (apply elem_of_app; right; exact Hx). destruct (sh_ent _ _ _ _ _ _ _ _ I c x w' Hc Hx') as [H1 H2]. split; [exact H1|]. split; [|exact (sh_bkt _ _ _ _ _ _ _ _ I c x w' Hc Hx')].
      rewrite list_lookup_insert_ne; [exact H2|]. intros <-. assert (Hin : c ∈ gpos (gb G c)) by (unfold gpos; apply elem_of_list_fmap; exists (c, w'); auto). pose proof (sf_chain _ _ _ _ _ _ _ _ I c c Hc Hin). lia.
    - rewrite list_lookup_insert by exact Hlo. discriminate.
    - exact (sh_link _ _ _ _ _ _ _ _ I c Hc).
    - pose proof (sh_kd _ _ _ _ _ _ _ _ I c Hc) as H. unfold gvals in *. rewrite Hw in H. cbn [olist app fst snd] in *. apply mx_kd_cons in H. tauto.
    - unfold gvals. rewrite Hw. cbn [fst snd olist app length]. lia.
  Qed.
  (** [p] is behind [q] in the list of bucket [c] *)
  Definition behind G (c q p : nat) (w : V) es1 es2 : Prop := (gb G c).2 = es1 ++ (p, w) :: es2 /\ lend c es1.*1 = q.
  Lemma sh_unlink s G F D L m a b c q p w es1 es2 po qo : shape s G F D L m a b -> (c < bc)%nat -> behind G c q p w es1 es2 -> c_off s !! p = Some po -> c_off s !! q = Some qo ->
    shape (put_off s q (if po =? 0 then 0 else qo + po)) (<[c := ((gb G c).1, es1 ++ es2)]> G) F (p :: D) L (m + 1) a b.
  Proof using HP.
    intros I Hc [Eg Eq] Hpo Hqo. change (if po =? 0 then 0 else qo + po) with (unlink_offset po qo).
    pose proof (sf_chain_nodup _ _ _ _ _ _ _ _ I c Hc) as ND. pose proof (sh_link _ _ _ _ _ _ _ _ I c Hc) as HL.
    assert (Egp : gpos (gb G c) = es1.*1 ++ p :: es2.*1) by (unfold gpos; rewrite Eg, fmap_app; reflexivity).
    assert (Hql : q ∈ lst_of G c). { unfold lst_of. rewrite Egp, app_comm_cons. apply elem_of_app. left. rewrite <- Eq. apply lend_elem. }
    assert (Hsub : forall x w', (x, w') ∈ ents_of c ((gb G c).1, es1 ++ es2) -> (x, w') ∈ ents G c).
    { intros x w' Hx. unfold ents, ents_of in *. cbn [fst snd] in Hx. rewrite Eg. apply elem_of_app in Hx as [Hx|Hx]; apply elem_of_app; [auto|right]. apply elem_of_app in Hx as [Hx|Hx]; apply elem_of_app; [auto|right; right; exact Hx]. }
    unfold lst_of in ND. rewrite Egp in ND, HL. rewrite <- Eq in Hqo. pose proof (linked_remove _ _ _ _ _ _ _ HL ND Hpo Hqo) as HL'. rewrite Eq in HL', Hqo.
    assert (Hrng : forall x o, <[q := unlink_offset po qo]> (c_off s) !! x = Some o -> 0 <= Z.of_nat x + o < Z.of_nat n).
    { intros x o Hx. apply list_lookup_insert_Some in Hx as [(-> & <- & _)|[_ Hx]]; [|exact (sh_off _ _ _ _ _ _ _ _ I x o Hx)]. unfold unlink_offset. case_match eqn:Ez; [pose proof (sf_node _ _ _ _ _ _ _ _ I c x Hc Hql); lia|].
      pose proof (sh_off _ _ _ _ _ _ _ _ I p po Hpo) as Hr. pose proof (linked_split _ _ _ _ HL) as HL2. rewrite Eq in HL2. cbn [linked] in HL2. destruct HL2 as (_ & HL2 & _). rewrite Hqo in HL2. injection HL2 as ->. lia. }
    apply (sh_list _ _ _ _ _ _ _ _ _ c _ (p :: D) _ I Hc); cbn [put_off c_values c_off c_occ c_locks c_count c_ex]; auto; try solve [apply I].
    - rewrite insert_length. apply I.
    - unfold gpos at 1. cbn [snd]. rewrite fmap_app, Egp. rewrite <- !app_assoc. cbn [app]. apply Permutation_app; [reflexivity|]. rewrite <- Permutation_middle. reflexivity.
    - exact (sh_head _ _ _ _ _ _ _ _ I c Hc).
    - intros x w' Hx. apply Hsub in Hx. destruct (sh_ent _ _ _ _ _ _ _ _ I c x w' Hc Hx) as [H1 H2]. split; [exact H1|]. split; [exact H2|exact (sh_bkt _ _ _ _ _ _ _ _ I c x w' Hc Hx)].
    - unfold gpos. cbn [snd]. rewrite fmap_app. exact HL'.
    - intros x Hx. rewrite list_lookup_insert_ne; [reflexivity|]. intros ->. contradiction.
    - pose proof (sh_kd _ _ _ _ _ _ _ _ I c Hc) as H. apply (mx_kd_perm _ (w :: gvals ((gb G c).1, es1 ++ es2))) in H; [apply mx_kd_cons in H; tauto|].
      unfold gvals. cbn [fst snd]. rewrite Eg, !fmap_app. cbn [fmap list_fmap snd]. rewrite <- !Permutation_middle. reflexivity.
    - unfold gvals. cbn [fst snd]. rewrite Eg, !fmap_app, !app_length. cbn. lia.
  Qed.
End shape.
