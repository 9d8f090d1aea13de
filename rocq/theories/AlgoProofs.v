From Verif Require Import Base AlgoModel AlgoSpec BitProofs.

(** ** min max clamp *)
Section order.
  Context {T : Type} (lt : T -> T -> bool).
  Lemma min_spec : strict_weak lt -> forall a b,
    (min lt a b = a \/ min lt a b = b) /\ lt a (min lt a b) = false /\ lt b (min lt a b) = false
    /\ (lt b a = false -> min lt a b = a).
  Proof.
    intros (Hi & Ht & Hw) a b. unfold min. destruct (lt b a) eqn:E.
    - repeat split; auto; try congruence. destruct (lt a b) eqn:E2; [|reflexivity].
      specialize (Ht _ _ _ E E2). rewrite Hi in Ht. discriminate.
    - repeat split; auto.
  Qed.

  Lemma max_spec : strict_weak lt -> forall a b,
    (max lt a b = a \/ max lt a b = b) /\ lt (max lt a b) a = false /\ lt (max lt a b) b = false
    /\ (lt a b = false -> max lt a b = a).
  Proof.
    intros (Hi & Ht & Hw) a b. unfold max. destruct (lt a b) eqn:E.
    - repeat split; auto; try congruence. destruct (lt b a) eqn:E2; [|reflexivity].
      specialize (Ht _ _ _ E E2). rewrite Hi in Ht. discriminate.
    - repeat split; auto.
  Qed.

  Lemma clamp_spec : strict_weak lt -> forall v lo hi,
    (lt hi lo = true -> clamp lt v lo hi = UB) /\
    (lt hi lo = false -> exists r, clamp lt v lo hi = Ret r /\
       lt r lo = false /\ lt hi r = false /\
       (lt v lo = false -> lt hi v = false -> r = v) /\
       (lt v lo = true -> r = lo) /\ (lt hi v = true -> r = hi) /\
       clamp lt r lo hi = Ret r).
  Proof.
    intros (Hi & Ht & Hw) v lo hi. unfold clamp. split; intros H; rewrite H; [reflexivity|].
    eexists. split; [reflexivity|].
    destruct (lt v lo) eqn:E1; [|destruct (lt hi v) eqn:E2].
    - repeat split; auto; try congruence.
      + intros E2. exfalso. specialize (Ht _ _ _ E2 E1). congruence.
      + rewrite Hi, H. reflexivity.
    - repeat split; auto; try congruence. rewrite H, Hi. reflexivity.
    - repeat split; auto; try congruence. rewrite E1, E2. reflexivity.
  Qed.
End order.

(** ** pointwise parallel updates *)
Section memory.
  Context {T : Type}.
  Implicit Types (m : mem T).

  (** a functor that, called with i, writes exactly cell [dst i] with [new i] *)
  Lemma for_each_pointwise (f : nat -> mem T -> outcome (mem T)) (dst : nat -> nat) (new : nat -> cell T) order m0 :
    NoDup order ->
    (forall i j, i ∈ order -> j ∈ order -> dst i = dst j -> i = j) ->
    (forall i m, i ∈ order -> length m = length m0 ->
        (forall p, (forall j, j ∈ order -> p = dst j -> j = i) -> m !! p = m0 !! p) ->
        f i m = Ret (<[dst i := new i]> m)) ->
    (forall i, i ∈ order -> (dst i < length m0)%nat) ->
    exists m', for_each_index order f m0 = Ret m' /\ length m' = length m0 /\
      (forall i, i ∈ order -> m' !! dst i = Some (new i)) /\
      (forall p, (forall i, i ∈ order -> p <> dst i) -> m' !! p = m0 !! p).
  Proof.
    intros Hnd Hinj Hf Hlen. unfold for_each_index.
    assert (H : forall done todo, order = done ++ todo ->
      exists m', fold_left (fun acc i => let! m := acc in f i m) done (Ret m0) = Ret m' /\ length m' = length m0 /\
      (forall i, i ∈ done -> m' !! dst i = Some (new i)) /\
      (forall p, (forall i, i ∈ done -> p <> dst i) -> m' !! p = m0 !! p)).
    { induction done as [|i done IH] using rev_ind; intros todo Ho.
      - exists m0. cbn. repeat split; auto. intros i Hi. apply elem_of_nil in Hi. contradiction.
      - destruct (IH (i :: todo)) as (m' & E & Hl & H1 & H2); [rewrite Ho, <- app_assoc; reflexivity|].
        rewrite fold_left_app, E. cbn [fold_left obind].
        assert (Hi : i ∈ order) by (rewrite Ho; set_solver).
        assert (Hnid : i ∉ done).
        { rewrite Ho in Hnd. apply NoDup_app in Hnd as (Hnd & _ & _). apply NoDup_app in Hnd as (_ & Hx & _).
          intros Hin. apply (Hx i Hin). left. }
        rewrite Hf; [|exact Hi|exact Hl|].
        + eexists. split; [reflexivity|]. rewrite insert_length. split; [exact Hl|]. split.
          * intros j Hj. apply elem_of_app in Hj as [Hj|Hj].
            -- rewrite list_lookup_insert_ne; [auto|]. intros Heq. apply Hnid.
               rewrite (Hinj i j); auto. rewrite Ho. set_solver.
            -- apply elem_of_list_singleton in Hj as ->. apply list_lookup_insert. rewrite Hl. auto.
          * intros p Hp. rewrite list_lookup_insert_ne.
            -- apply H2. intros j Hj. apply Hp. set_solver.
            -- intros Heq. apply (Hp i); [set_solver|auto].
        + intros p Hp. apply H2. intros j Hj Heq. apply Hnid.
          rewrite <- (Hp j); auto. rewrite Ho. set_solver. }
    destruct (H order []) as (m' & E & ?); [rewrite app_nil_r; reflexivity|]. eauto.
  Qed.

  Lemma perm_elem n (order : list nat) i : Permutation order (seq 0 n) -> i ∈ order <-> (i < n)%nat.
  Proof. intros H. rewrite H, elem_of_seq. lia. Qed.

  Lemma perm_nodup n (order : list nat) : Permutation order (seq 0 n) -> NoDup order.
  Proof. intros H. rewrite H. apply NoDup_seq. Qed.

  Lemma block_ext (m m' : mem T) b n (g : nat -> cell T) :
    length m' = length m -> (b + n <= length m)%nat ->
    (forall i, (i < n)%nat -> m' !! (b + i)%nat = Some (g i)) ->
    (forall p, (p < b \/ b + n <= p)%nat -> m' !! p = m !! p) ->
    m' = take b m ++ (g <$> seq 0 n) ++ drop (b + n) m.
  Proof.
    intros Hl Hr H1 H2. apply list_eq. intros p.
    destruct (decide (p < b)%nat) as [Hp|Hp].
    - rewrite H2 by lia. rewrite lookup_app_l by (rewrite take_length; lia). rewrite lookup_take by lia. reflexivity.
    - rewrite lookup_app_r by (rewrite take_length; lia). rewrite take_length.
      replace (b `min` length m)%nat with b by lia.
      destruct (decide (p < b + n)%nat) as [Hp2|Hp2].
      + rewrite lookup_app_l by (rewrite fmap_length, seq_length; lia).
        rewrite list_lookup_fmap, lookup_seq_lt by lia. cbn.
        specialize (H1 (p - b)%nat). replace (b + (p - b))%nat with p in H1 by lia. rewrite H1 by lia. reflexivity.
      + rewrite lookup_app_r by (rewrite fmap_length, seq_length; lia).
        rewrite fmap_length, seq_length, lookup_drop. rewrite H2 by lia. f_equal. lia.
  Qed.

  Lemma for_each_block (f : nat -> mem T -> outcome (mem T)) b n (g : nat -> cell T) order m0 :
    Permutation order (seq 0 n) -> (b + n <= length m0)%nat ->
    (forall i m, (i < n)%nat -> length m = length m0 ->
        (forall p, (p < b \/ b + n <= p \/ p = b + i)%nat -> m !! p = m0 !! p) ->
        f i m = Ret (<[(b + i)%nat := g i]> m)) ->
    for_each_index order f m0 = Ret (take b m0 ++ (g <$> seq 0 n) ++ drop (b + n) m0).
  Proof.
    intros Hp Hlen Hf.
    destruct (for_each_pointwise f (fun i => b + i)%nat g order m0) as (m' & E & Hl & H1 & H2).
    - eapply perm_nodup; eauto.
    - intros i j _ _ H. lia.
    - intros i m Hi Hm Hag. apply Hf; [eapply perm_elem; eauto|exact Hm|].
      intros p Hcase. apply Hag. intros j Hj Hpj. apply (perm_elem n) in Hj; [|exact Hp]. lia.
    - intros i Hi. apply (perm_elem n) in Hi; [|exact Hp]. lia.
    - rewrite E. f_equal. apply block_ext; auto.
      + intros i Hi. apply H1. eapply perm_elem; eauto.
      + intros p Hcase. apply H2. intros i Hi Heq. apply (perm_elem n) in Hi; [|exact Hp]. lia.
  Qed.

  Definition live_range m b n : Prop := forall i, (i < n)%nat -> exists v, m !! (b + i)%nat = Some (Live v).

  Lemma live_range_len m b n : live_range m b n -> (0 < n)%nat -> (b + n <= length m)%nat.
  Proof.
    intros H Hn. destruct (H (n - 1)%nat) as [v Hv]; [lia|]. apply lookup_lt_Some in Hv. lia.
  Qed.

  Lemma fill_n_spec order n b v m : Permutation order (seq 0 n) -> (b + n <= length m)%nat -> live_range m b n ->
    fill_n order b v m = Ret (take b m ++ replicate n (Live v) ++ drop (b + n) m).
  Proof.
    intros Hp Hlen Hl. unfold fill_n. rewrite (for_each_block _ b n (fun _ => Live v)); auto.
    - repeat f_equal. clear. generalize 0%nat. induction n; intros k; cbn; [reflexivity|]. f_equal. auto.
    - intros i m' Hi Hlm Hag. unfold assign. rewrite Hag by lia. destruct (Hl i Hi) as [w ->]. reflexivity.
  Qed.

  Lemma uninitialized_fill_n_spec order n b v m : Permutation order (seq 0 n) -> (b + n <= length m)%nat ->
    uninitialized_fill_n order b v m = Ret (take b m ++ replicate n (Live v) ++ drop (b + n) m).
  Proof.
    intros Hp Hlen. unfold uninitialized_fill_n. rewrite (for_each_block _ b n (fun _ => Live v)); auto.
    - repeat f_equal. clear. generalize 0%nat. induction n; intros k; cbn; [reflexivity|]. f_equal. auto.
    - intros i m' Hi Hlm Hag. unfold construct_at. destruct (lookup_lt_is_Some_2 m' (b + i)%nat) as [w ->]; [lia|reflexivity].
  Qed.

  Lemma iota_spec add order n b v m : Permutation order (seq 0 n) -> (b + n <= length m)%nat -> live_range m b n ->
    iota add order b v m = Ret (take b m ++ ((fun i => Live (add v i)) <$> seq 0 n) ++ drop (b + n) m).
  Proof.
    intros Hp Hlen Hl. unfold iota. rewrite (for_each_block _ b n (fun i => Live (add v i))); auto.
    intros i m' Hi Hlm Hag. unfold assign. rewrite Hag by lia. destruct (Hl i Hi) as [w ->]. reflexivity.
  Qed.

  Lemma destroy_n_spec order n b m : Permutation order (seq 0 n) -> (b + n <= length m)%nat -> live_range m b n ->
    destroy_n order b m = Ret (take b m ++ replicate n Raw ++ drop (b + n) m).
  Proof.
    intros Hp Hlen Hl. unfold destroy_n. rewrite (for_each_block _ b n (fun i => Raw)); auto.
    - repeat f_equal. clear. generalize 0%nat. induction n; intros k; cbn; [reflexivity|]. f_equal. auto.
    - intros i m' Hi Hlm Hag. unfold destroy_at. rewrite Hag by lia. destruct (Hl i Hi) as [w ->]. reflexivity.
  Qed.

  Lemma take_drop_range (m : mem T) a n : (a + n <= length m)%nat ->
    (fun i => default Raw (m !! (a + i)%nat)) <$> seq 0 n = take n (drop a m).
  Proof.
    intros Hl. apply list_eq. intros p. rewrite list_lookup_fmap.
    destruct (decide (p < n)%nat) as [Hp|Hp].
    - rewrite lookup_seq_lt by lia. rewrite lookup_take, lookup_drop by lia. cbn.
      destruct (lookup_lt_is_Some_2 m (a + p)%nat) as [w ->]; [lia|reflexivity].
    - rewrite lookup_seq_ge by lia. rewrite lookup_take_ge by lia. reflexivity.
  Qed.

  Lemma copy_n_spec order n a b m : Permutation order (seq 0 n) ->
    (a + n <= length m)%nat -> (b + n <= length m)%nat -> (a + n <= b \/ b + n <= a)%nat ->
    live_range m a n -> live_range m b n ->
    copy_n order a b m = Ret (take b m ++ take n (drop a m) ++ drop (b + n) m).
  Proof.
    intros Hp Hla Hlb Hd Ha Hb. unfold copy_n.
    rewrite (for_each_block _ b n (fun i => default Raw (m !! (a + i)%nat))); auto.
    - rewrite take_drop_range by lia. reflexivity.
    - intros i m' Hi Hlm Hag. unfold read, assign. rewrite Hag by lia.
      destruct (Ha i Hi) as [w ->]. cbn [obind default]. rewrite Hag by lia. destruct (Hb i Hi) as [w' ->]. reflexivity.
  Qed.

  Lemma uninitialized_copy_n_spec order n a b m : Permutation order (seq 0 n) ->
    (a + n <= length m)%nat -> (b + n <= length m)%nat -> (a + n <= b \/ b + n <= a)%nat ->
    live_range m a n ->
    uninitialized_copy_n order a b m = Ret (take b m ++ take n (drop a m) ++ drop (b + n) m).
  Proof.
    intros Hp Hla Hlb Hd Ha. unfold uninitialized_copy_n.
    rewrite (for_each_block _ b n (fun i => default Raw (m !! (a + i)%nat))); auto.
    - rewrite take_drop_range by lia. reflexivity.
    - intros i m' Hi Hlm Hag. unfold read, construct_at. rewrite Hag by lia.
      destruct (Ha i Hi) as [w ->]. cbn [obind default].
      destruct (lookup_lt_is_Some_2 m' (b + i)%nat) as [w' ->]; [lia|reflexivity].
  Qed.
End memory.

(** ** reduction *)
Section reduce.
  Context {A : Type} (op : A -> A -> A).
  Hypothesis Hassoc : forall a b c, op a (op b c) = op (op a b) c.
  Hypothesis Hcomm : forall a b, op a b = op b a.

  Lemma fold_left_op_comm l : forall a b, fold_left op l (op a b) = op (fold_left op l a) b.
  Proof.
    induction l as [|c l IH]; intros a b; [reflexivity|]. cbn [fold_left].
    replace (op (op a b) c) with (op (op a c) b); [apply IH|].
    rewrite <- !Hassoc. f_equal. apply Hcomm.
  Qed.

  Lemma fold_left_perm l1 l2 : Permutation l1 l2 -> forall a, fold_left op l1 a = fold_left op l2 a.
  Proof.
    induction 1 as [|x l1 l2 _ IH|x y l|l1 l2 l3 _ IH1 _ IH2]; intros a; cbn [fold_left]; auto.
    - f_equal. rewrite <- !Hassoc. f_equal. apply Hcomm.
    - rewrite IH1. apply IH2.
  Qed.

  (** value of a nonempty list of operands *)
  Definition nefold (l : list A) (d : A) : A := match l with [] => d | x :: l => fold_left op l x end.

  Lemma nefold_app l1 l2 d : l1 <> [] -> l2 <> [] -> nefold (l1 ++ l2) d = op (nefold l1 d) (nefold l2 d).
  Proof.
    destruct l1 as [|x l1]; [congruence|]. destruct l2 as [|y l2]; [congruence|]. intros _ _. cbn.
    rewrite fold_left_app. cbn. rewrite (Hcomm (fold_left op l1 x) y). rewrite fold_left_op_comm.
    apply Hcomm.
  Qed.

  Lemma nefold_perm l1 l2 d : Permutation l1 l2 -> nefold l1 d = nefold l2 d.
  Proof.
    induction 1 as [|x l1 l2 H IH|x y l|l1 l2 l3 _ IH1 _ IH2]; cbn; auto.
    - apply fold_left_perm. exact H.
    - f_equal. apply Hcomm.
    - congruence.
  Qed.

  Definition leaf_val (f : nat -> A) (init : A) (o : option nat) : A := match o with None => init | Some i => f i end.

  Lemma rleaves_ne (t : rtree) : rleaves t <> [].
  Proof.
    induction t as [| |l IHl r IHr]; cbn; try congruence. intros H. apply app_eq_nil in H as [? ?]. auto.
  Qed.

  Lemma reval_leaves f init t : reval op f init t = nefold (map (leaf_val f init) (rleaves t)) init.
  Proof.
    induction t as [| |l IHl r IHr]; cbn [reval rleaves map]; try reflexivity.
    rewrite map_app, nefold_app, IHl, IHr; [reflexivity| |];
      intros H; apply map_eq_nil in H; eapply rleaves_ne; eauto.
  Qed.

  Lemma reval_perm f init t n : Permutation (rleaves t) (None :: (Some <$> seq 0 n)) ->
    reval op f init t = fold_left op (map f (seq 0 n)) init.
  Proof.
    intros H. rewrite reval_leaves. rewrite (nefold_perm _ (map (leaf_val f init) (None :: (Some <$> seq 0 n)))).
    - cbn [map nefold leaf_val]. f_equal. generalize 0%nat. induction n as [|n IH]; intros k; [reflexivity|].
      + apply Permutation_length in H. cbn. f_equal.
        clear -n. generalize (S k). induction n as [|n IH]; intros j; [reflexivity|]. cbn. f_equal. apply IH.
    - apply Permutation_map. exact H.
  Qed.
End reduce.

Lemma transform_reduce_hip_spec {A} (op : A -> A -> A) f init t size :
  (forall a b c, op a (op b c) = op (op a b) c) -> (forall a b, op a b = op b a) ->
  Permutation (rleaves t) (None :: (Some <$> seq 0 (Z.to_nat size))) ->
  transform_reduce_index_hip size op f init t = fold_left op (map f (seq 0 (Z.to_nat size))) init.
Proof.
  intros Ha Hc Hp. unfold transform_reduce_index_hip.
  destruct (Z.leb_spec size 0) as [H|H].
  - replace (Z.to_nat size) with 0%nat by lia. reflexivity.
  - destruct (Z.leb_spec size 4096); [reflexivity|]. apply reval_perm; auto.
Qed.

(** ** div_up *)
Lemma div_up_spec a b : 
  (0 <= a -> 0 < b -> exists q, div_up a b = Ret q /\ 0 <= q /\ q * b >= a /\ forall q', q' * b >= a -> q <= q') /\
  (a < 0 \/ b <= 0 -> div_up a b = UB).
Proof.
  unfold div_up. split.
  - intros Ha Hb. replace ((0 <=? a) && (0 <? b)) with true by lia.
    rewrite Z.rem_mod_nonneg, Z.quot_div_nonneg by lia.
    pose proof (Z.div_mod a b). pose proof (Z.mod_pos_bound a b Hb). pose proof (Z.div_pos a b).
    eexists. split; [reflexivity|].
    destruct (Z.eqb_spec (a mod b) 0); cbn [negb]; repeat split; try lia; intros q' Hq; nia.
  - intros H. replace ((0 <=? a) && (0 <? b)) with false by lia. reflexivity.
Qed.

(** ** lanes *)
Lemma filter_head {A} (P : A -> Prop) `{!forall x, Decision (P x)} l x l' : filter P l = x :: l' -> P x /\ x ∈ l.
Proof. intros Hfl. apply (elem_of_list_filter P). rewrite Hfl. left. Qed.

Definition lanes (active : Z) : list Z := filter (fun i => Z.testbit active i = true) (seqZ 0 64).

Lemma ffsll_spec x : 0 < x < 2 ^ 64 -> exists l, lanes x = (ffsll x - 1) :: l.
Proof.
  intros Hx. unfold ffsll, lanes.
  destruct (filter _ _) as [|i l] eqn:E.
  - exfalso. pose proof (Z.bit_log2 x). pose proof (log2_lt_width 64 x Hx). pose proof (Z.log2_nonneg x).
    assert (Z.log2 x ∈ filter (fun i => Z.testbit x i = true) (seqZ 0 64)).
    { apply elem_of_list_filter. split; [auto with lia|]. apply elem_of_seqZ. lia. }
    rewrite E in H2. apply elem_of_nil in H2. exact H2.
  - exists l. f_equal. lia.
Qed.

Lemma seqZ_sorted m n : StronglySorted Z.lt (seqZ m n).
Proof.
  destruct (Z.le_gt_cases n 0) as [H|H]; [rewrite seqZ_nil by lia; constructor|].
  rewrite <- (Z2Nat.id n) by lia. generalize (Z.to_nat n). clear. intros n. revert m.
  induction n as [|n IH]; intros m; [constructor|].
  rewrite Nat2Z.inj_succ, seqZ_cons by lia. replace (Z.pred (Z.succ (Z.of_nat n))) with (Z.of_nat n) by lia.
  constructor; [apply IH|]. apply Forall_forall. intros x Hx. apply elem_of_seqZ in Hx. lia.
Qed.

Lemma filter_sorted {A} (R : A -> A -> Prop) (P : A -> Prop) `{!forall x, Decision (P x)} l :
  StronglySorted R l -> StronglySorted R (filter P l).
Proof.
  induction 1 as [|a l Hs IH Hf]; [constructor|]. rewrite filter_cons. destruct (decide (P a)); [|exact IH].
  constructor; [exact IH|]. apply Forall_forall. intros x Hx. apply elem_of_list_filter in Hx as [_ Hx].
  rewrite Forall_forall in Hf. auto.
Qed.

Lemma lanes_sorted x : StronglySorted Z.lt (lanes x).
Proof. apply filter_sorted, seqZ_sorted. Qed.

(** clearing the lowest lane *)
Lemma lanes_clear x e l : 0 <= x < 2 ^ 64 -> lanes x = e :: l ->
  let x' := Z.land x ((Z.lnot (Z.shiftl 1 e)) mod 2 ^ 64) in
  lanes x' = l /\ 0 <= x' < 2 ^ 64.
Proof.
  intros Hx E x'.
  assert (He : Z.testbit x e = true /\ e ∈ seqZ 0 64) by exact (filter_head (fun i => Z.testbit x i = true) _ _ _ E).
  destruct He as [He1 He2]. apply elem_of_seqZ in He2.
  assert (Hb : forall i, 0 <= i < 64 -> Z.testbit x' i = Z.testbit x i && negb (i =? e)).
  { intros i Hi. unfold x'. rewrite Z.land_spec. rewrite Z.mod_pow2_bits_low by lia.
    rewrite Z.lnot_spec by lia. rewrite Z.shiftl_1_l, Z.pow2_bits_eqb by lia. rewrite Z.eqb_sym. reflexivity. }
  assert (Hx' : 0 <= x') by (apply Z.land_nonneg; lia).
  split.
  - pose proof (lanes_sorted x) as Hs. rewrite E in Hs. apply StronglySorted_inv in Hs as [_ Hf].
    assert (lanes x' = filter (fun i => i <> e) (lanes x)) as ->.
    { unfold lanes. rewrite list_filter_filter. apply list_filter_ext_in. intros i Hi. apply elem_of_seqZ in Hi.
      rewrite Hb by lia. rewrite andb_true_iff, negb_true_iff, Z.eqb_neq. tauto. }
    rewrite E. rewrite filter_cons. rewrite decide_False by (intros H; apply H; reflexivity).
    clear -Hf. induction l as [|a l IH]; [reflexivity|]. rewrite filter_cons.
    apply Forall_cons in Hf as [Ha Hf]. rewrite decide_True by lia. f_equal. auto.
  - split; [exact Hx'|]. apply bits_lt_pow2; [lia|lia|]. intros j Hj. unfold x'. rewrite Z.land_spec.
    rewrite (testbit_high x 64) by lia. reflexivity.
Qed.

Lemma lanes_zero : lanes 0 = [].
Proof. vm_compute. reflexivity. Qed.

Lemma lanes_pos x : 0 <= x < 2 ^ 64 -> x <> 0 -> exists l, lanes x = (ffsll x - 1) :: l.
Proof. intros. apply ffsll_spec. lia. Qed.

(** index of an element of a list, as round number *)
Fixpoint rounds_of (lane : Z) (l : list Z) (round : Z) : list Z :=
  match l with
  | [] => []
  | e :: l => (if lane =? e then [round] else []) ++ rounds_of lane l (round + 1)
  end.

Lemma lane_loop_spec fuel : forall lane active round, 0 <= active < 2 ^ 64 -> (length (lanes active) < fuel)%nat ->
  lane_loop fuel lane active round = Ret (rounds_of lane (lanes active) round).
Proof.
  induction fuel as [|fuel IH]; intros lane active round Ha Hf; [lia|].
  cbn [lane_loop]. destruct (Z.eqb_spec active 0) as [->|Hn].
  - rewrite lanes_zero. reflexivity.
  - destruct (lanes_pos active Ha Hn) as [l E]. pose proof (lanes_clear active _ l Ha E) as [E' Ha'].
    rewrite IH; [|exact Ha'|]; rewrite ?E' in *.
    + rewrite E. cbn [obind rounds_of]. reflexivity.
    + rewrite E in Hf. cbn in Hf. lia.
Qed.

Lemma rounds_of_notin lane l : forall round, lane ∉ l -> rounds_of lane l round = [].
Proof.
  induction l as [|e l IH]; intros round H; [reflexivity|]. cbn [rounds_of].
  apply not_elem_of_cons in H as [H1 H2]. destruct (Z.eqb_spec lane e); [contradiction|]. cbn. auto.
Qed.

Lemma rounds_of_sorted lane l : StronglySorted Z.lt l -> lane ∈ l -> forall round,
  rounds_of lane l round = [round + Z.of_nat (length (filter (fun j => j < lane) l))].
Proof.
  induction 1 as [|e l Hs IH Hf]; intros Hin round; [apply elem_of_nil in Hin; contradiction|].
  cbn [rounds_of]. rewrite filter_cons. rewrite Forall_forall in Hf.
  destruct (Z.eqb_spec lane e) as [->|Hne].
  - rewrite decide_False by lia. rewrite rounds_of_notin.
    + assert (filter (fun j => j < e) l = []) as ->.
      { destruct (filter _ l) as [|a l0] eqn:E; [reflexivity|]. apply filter_head in E as [E1 E2]. specialize (Hf _ E2). lia. }
      cbn. f_equal. lia.
    + intros H. specialize (Hf _ H). lia.
  - apply elem_of_cons in Hin as [?|Hin]; [contradiction|].
    specialize (Hf _ Hin). rewrite decide_True by lia. cbn [app length]. rewrite IH by assumption. f_equal. lia.
Qed.

Lemma lanes_len x : (length (lanes x) <= 64)%nat.
Proof.
  unfold lanes. etrans; [apply filter_length|]. rewrite seqZ_length. lia.
Qed.

Lemma warp_convergent_spec fuel lane active : 0 <= active < 2 ^ 64 -> (64 < fuel)%nat -> 0 <= lane < 64 ->
  Z.testbit active lane = true ->
  warp_convergent_execute fuel lane active =
    Ret [Z.of_nat (length (filter (fun j => j < lane /\ Z.testbit active j = true) (seqZ 0 64)))].
Proof.
  intros Ha Hf Hl Ht. unfold warp_convergent_execute.
  pose proof (lanes_len active). rewrite lane_loop_spec by (auto with lia).
  rewrite rounds_of_sorted.
  - rewrite Z.add_0_l. unfold lanes. rewrite list_filter_filter. reflexivity.
  - apply lanes_sorted.
  - unfold lanes. apply elem_of_list_filter. split; [exact Ht|]. apply elem_of_seqZ. lia.
Qed.

Lemma warp_convergent_inactive fuel lane active : 0 <= active < 2 ^ 64 -> (64 < fuel)%nat ->
  Z.testbit active lane = false -> warp_convergent_execute fuel lane active = Ret [].
Proof.
  intros Ha Hf Ht. unfold warp_convergent_execute.
  pose proof (lanes_len active). rewrite lane_loop_spec by (auto with lia).
  rewrite rounds_of_notin; [reflexivity|]. unfold lanes. rewrite elem_of_list_filter. rewrite Ht. intros [? _]. discriminate.
Qed.
