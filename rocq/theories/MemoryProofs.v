(** Proofs about memory.cpp: sorted maps, managers, the bookkeeping invariant. *)
From Verif Require Import Base MemoryModel MemorySpec.
From Coq Require Import Sorting.Sorted.

(** ** sorted maps *)
Notation keys l := (l.*1).
Definition sorted (l : list (Z * Z)) : Prop := StronglySorted (fun x y => x.1 < y.1) l.

Lemma sorted_nodup l : sorted l -> NoDup (keys l).
Proof.
  induction 1 as [|[q s] l Hs IH Hf]; [constructor|]. rewrite fmap_cons. constructor; [|exact IH]. cbn [fst]. intros Hin. apply elem_of_list_fmap in Hin as ([q' s'] & -> & Hin).
  rewrite Forall_forall in Hf. specialize (Hf _ Hin). cbn in Hf. lia.
Qed.
Lemma map_find_elem l p s : NoDup (keys l) -> (map_find l p = Some s <-> (p, s) ∈ l).
Proof.
  induction l as [|[q t] l IH]; intros ND; cbn [map_find].
  - split; [discriminate|intros H; inversion H].
  - rewrite fmap_cons in ND. apply NoDup_cons in ND as [N1 N2]. cbn [fst] in N1. destruct (Z.eqb_spec p q) as [->|Hne].
    + split; [intros [= ->]; left|]. intros H. apply elem_of_cons in H as [[= ->] |H]; [reflexivity|]. exfalso. apply N1. apply elem_of_list_fmap. exists (q, s). auto.
    + rewrite (IH N2). rewrite elem_of_cons. split; [auto|]. intros [[= -> ->] |H]; [contradiction|exact H].
Qed.
Lemma map_find_none l p : map_find l p = None <-> p ∉ keys l.
Proof.
  induction l as [|[q t] l IH]; cbn [map_find]; [split; [intros _ H; inversion H|reflexivity]|].
  rewrite fmap_cons, not_elem_of_cons. cbn [fst]. destruct (Z.eqb_spec p q) as [->|Hne]; [split; [discriminate|tauto]|]. rewrite IH. tauto.
Qed.
Lemma map_set_perm l p s : p ∉ keys l -> map_set l p s ≡ₚ (p, s) :: l.
Proof.
  induction l as [|[q t] l IH]; intros Hp; cbn [map_set]; [reflexivity|]. rewrite fmap_cons, not_elem_of_cons in Hp. cbn [fst] in Hp. destruct Hp as [H1 H2].
  destruct (Z.ltb_spec p q); [reflexivity|]. rewrite (proj2 (Z.eqb_neq _ _)) by exact H1. rewrite (IH H2). apply perm_swap.
Qed.
Lemma map_set_sorted l p s : p ∉ keys l -> sorted l -> sorted (map_set l p s).
Proof.
  intros Hp HS. induction HS as [|[q t] l Hs IH Hf]; cbn [map_set]; [repeat constructor|]. rewrite fmap_cons, not_elem_of_cons in Hp. cbn [fst] in Hp. destruct Hp as [H1 H2].
  destruct (Z.ltb_spec p q).
  - constructor; [constructor; assumption|]. constructor; [exact H|]. rewrite Forall_forall in Hf |- *. intros x Hx. specialize (Hf x Hx). cbn in *. lia.
  - rewrite (proj2 (Z.eqb_neq _ _)) by exact H1. constructor; [apply IH; exact H2|]. rewrite Forall_forall in Hf |- *. intros x Hx. rewrite (map_set_perm _ _ _ H2) in Hx.
    apply elem_of_cons in Hx as [-> |Hx]; [cbn; lia|apply Hf; exact Hx].
Qed.
Lemma map_erase_perm l p s : NoDup (keys l) -> (p, s) ∈ l -> l ≡ₚ (p, s) :: map_erase l p.
Proof.
  induction l as [|[q t] l IH]; intros ND Hin; [inversion Hin|]. cbn [map_erase]. rewrite fmap_cons in ND. apply NoDup_cons in ND as [N1 N2]. cbn [fst] in N1.
  destruct (Z.eqb_spec p q) as [->|Hne].
  - apply elem_of_cons in Hin as [[= ->] |Hin]; [reflexivity|]. exfalso. apply N1. apply elem_of_list_fmap. exists (q, s). auto.
  - apply elem_of_cons in Hin as [[= -> _] |Hin]; [contradiction|]. rewrite perm_swap. apply perm_skip. apply IH; assumption.
Qed.
Lemma map_erase_filter l p : NoDup (keys l) -> map_erase l p = filter (fun x => x.1 <> p) l.
Proof.
  induction l as [|[q t] l IH]; intros ND; [reflexivity|]. cbn [map_erase]. rewrite filter_cons. cbn [fst]. rewrite fmap_cons in ND. apply NoDup_cons in ND as [N1 N2]. cbn [fst] in N1.
  destruct (Z.eqb_spec p q) as [->|Hne].
  - rewrite decide_False by tauto. clear IH. symmetry. induction l as [|[a b] l IH]; [reflexivity|]. rewrite fmap_cons, not_elem_of_cons in N1. cbn [fst] in N1.
    rewrite filter_cons. cbn [fst]. rewrite decide_True by (intros ->; tauto). f_equal. apply IH; [tauto|]. rewrite fmap_cons in N2. apply NoDup_cons in N2. tauto.
  - rewrite decide_True by congruence. f_equal. apply IH. exact N2.
Qed.
Lemma sorted_filter (P : Z * Z -> Prop) `{!forall x, Decision (P x)} l : sorted l -> sorted (filter P l).
Proof.
  induction 1 as [|x l Hs IH Hf]; [constructor|]. rewrite filter_cons. destruct (decide (P x)); [|exact IH]. constructor; [exact IH|].
  rewrite Forall_forall in Hf |- *. intros y Hy. apply elem_of_list_filter in Hy. apply Hf. tauto.
Qed.
Lemma map_before_elem l p x : sorted l -> (x ∈ map_before l p <-> x ∈ l /\ x.1 < p).
Proof.
  induction 1 as [|[q t] l Hs IH Hf]; cbn [map_before]; [split; [intros H; inversion H|intros [H _]; inversion H]|].
  destruct (Z.ltb_spec q p) as [Hlt|Hge].
  - rewrite !elem_of_cons, IH. split; [|tauto]. intros [-> |]; [cbn; split; [auto|lia]|tauto].
  - split; [intros H; inversion H|]. intros [Hx Hl]. exfalso. apply elem_of_cons in Hx as [-> |Hx]; [cbn in Hl; lia|]. rewrite Forall_forall in Hf. specialize (Hf _ Hx). cbn in *. lia.
Qed.

(** ** one manager represents a set of blocks *)
Record mrep (m : mgr) (l : list (Z * Z)) : Prop := {
  mr_sorted : sorted (m_ptrs m);
  mr_perm : m_ptrs m ≡ₚ l;
  mr_count : m_ins m - m_del m = Z.of_nat (length l)
}.
Lemma mrep0 : mrep mgr0 [].
Proof. split; [constructor|reflexivity|reflexivity]. Qed.
Lemma mrep_perm m l l' : l ≡ₚ l' -> mrep m l -> mrep m l'.
Proof. intros E []. split; [assumption|rewrite <- E; assumption|rewrite <- E; assumption]. Qed.
Lemma mrep_nodup m l : mrep m l -> NoDup (keys l).
Proof. intros R. rewrite <- (mr_perm _ _ R). apply sorted_nodup, R. Qed.
Lemma mrep_find m l p s : mrep m l -> (map_find (m_ptrs m) p = Some s <-> (p, s) ∈ l).
Proof. intros R. rewrite map_find_elem by (apply sorted_nodup, R). rewrite (mr_perm _ _ R). reflexivity. Qed.
Lemma mrep_contains m l p : mrep m l -> contains_memory m p = bool_decide (p ∈ keys l).
Proof.
  intros R. unfold contains_memory. destruct (map_find (m_ptrs m) p) as [s|] eqn:E.
  - apply (mrep_find _ _ _ _ R) in E. symmetry. apply bool_decide_eq_true_2. apply elem_of_list_fmap. exists (p, s). auto.
  - apply map_find_none in E. symmetry. apply bool_decide_eq_false_2. rewrite <- (mr_perm _ _ R). exact E.
Qed.
Lemma mrep_valid m l : mrep m l -> mgr_valid m = true.
Proof. intros R. unfold mgr_valid, mgr_size. rewrite (mr_count _ _ R), (Permutation_length (mr_perm _ _ R)). apply Z.eqb_refl. Qed.
Lemma register_rep m l p s : mrep m l -> p ∉ keys l -> exists m', mgr_register m p s = Ret m' /\ mrep m' ((p, s) :: l) /\ m_ins m' = m_ins m + 1 /\ m_del m' = m_del m.
Proof.
  intros R Hp. unfold mgr_register. rewrite (mrep_contains _ _ _ R). rewrite bool_decide_eq_false_2 by exact Hp. cbn [negb]. rewrite (mrep_valid _ _ R).
  assert (Hp' : p ∉ keys (m_ptrs m)) by (rewrite (mr_perm _ _ R); exact Hp).
  assert (R' : mrep {| m_ptrs := map_set (m_ptrs m) p s; m_ins := m_ins m + 1; m_del := m_del m |} ((p, s) :: l)).
  { split; cbn [m_ptrs m_ins m_del].
    - apply map_set_sorted; [exact Hp'|apply R].
    - rewrite (map_set_perm _ _ _ Hp'). rewrite (mr_perm _ _ R). reflexivity.
    - pose proof (mr_count _ _ R). cbn [length]. lia. }
  cbv zeta. rewrite (mrep_contains _ _ _ R'). rewrite bool_decide_eq_true_2 by (rewrite fmap_cons; left). rewrite (mrep_valid _ _ R'). eauto 10.
Qed.
Lemma deregister_rep m l p : mrep m l -> p ∈ keys l -> exists m', mgr_deregister m p = Ret m' /\ mrep m' (filter (fun x => x.1 <> p) l) /\ m_ins m' = m_ins m /\ m_del m' = m_del m + 1.
Proof.
  intros R Hp. unfold mgr_deregister. rewrite (mrep_contains _ _ _ R). rewrite bool_decide_eq_true_2 by exact Hp. rewrite (mrep_valid _ _ R).
  pose proof (sorted_nodup _ (mr_sorted _ _ R)) as ND.
  assert (R' : mrep {| m_ptrs := map_erase (m_ptrs m) p; m_ins := m_ins m; m_del := m_del m + 1 |} (filter (fun x => x.1 <> p) l)).
  { apply elem_of_list_fmap in Hp as ([q s] & -> & Hp). cbn [fst] in *. rewrite <- (mr_perm _ _ R) in Hp.
    split; cbn [m_ptrs m_ins m_del].
    - rewrite (map_erase_filter _ _ ND). apply sorted_filter, R.
    - rewrite (map_erase_filter _ _ ND). apply filter_Permutation. apply R.
    - rewrite <- (Permutation_length (filter_Permutation (fun x => x.1 <> q) _ _ (mr_perm _ _ R))). rewrite <- (map_erase_filter _ _ ND).
      pose proof (Permutation_length (map_erase_perm _ _ _ ND Hp)) as Hl. rewrite (Permutation_length (mr_perm _ _ R)) in Hl. cbn [length] in Hl. pose proof (mr_count _ _ R). lia. }
  cbv zeta. rewrite (mrep_contains _ _ _ R'). rewrite bool_decide_eq_false_2.
  - cbn [negb]. rewrite (mrep_valid _ _ R'). eauto 10.
  - intros H. apply elem_of_list_fmap in H as (x & -> & H). apply elem_of_list_filter in H. tauto.
Qed.
Lemma submemory_rep m l p n : mrep m l -> 0 < n -> (contains_submemory m p n = true <-> exists q s, (q, s) ∈ l /\ q <= p /\ p + n <= q + s).
Proof.
  intros R Hn. unfold contains_submemory. rewrite existsb_exists. split.
  - intros ([q s] & Hin & Hc). apply elem_of_list_In in Hin. apply (map_before_elem _ _ _ (mr_sorted _ _ R)) in Hin as [Hin _]. rewrite (mr_perm _ _ R) in Hin.
    exists q, s. split; [exact Hin|]. lia.
  - intros (q & s & Hin & H1 & H2). exists (q, s). split; [|lia]. apply elem_of_list_In. apply (map_before_elem _ _ _ (mr_sorted _ _ R)). rewrite (mr_perm _ _ R). cbn [fst]. split; [exact Hin|lia].
Qed.
(** for n = 0: the address has to be behind the start of the block *)
Lemma submemory_incl m l p n : mrep m l -> contains_submemory m p n = true -> exists q s, (q, s) ∈ l /\ q <= p /\ p + n <= q + s.
Proof.
  intros R H. unfold contains_submemory in H. apply existsb_exists in H as ([q s] & Hin & Hc). apply elem_of_list_In in Hin. apply (map_before_elem _ _ _ (mr_sorted _ _ R)) in Hin as [Hin _].
  rewrite (mr_perm _ _ R) in Hin. exists q, s. split; [exact Hin|]. lia.
Qed.

(** ** the heap *)
Record hrep (h : list (Z * Z)) : Prop := {
  hr_pos : forall q s, (q, s) ∈ h -> 0 < q /\ 0 < s;
  hr_nodup : NoDup h;
  hr_disj : forall q s q' s', (q, s) ∈ h -> (q', s') ∈ h -> (q, s) = (q', s') \/ q + s <= q' \/ q' + s' <= q
}.
Lemma hrep_keys h : hrep h -> NoDup (keys h).
Proof.
  intros R. assert (Hinj : forall x y, x ∈ h -> y ∈ h -> x.1 = y.1 -> x = y).
  { intros [q s] [q' s'] H1 H2 E. cbn in E. subst q'. destruct (hr_disj _ R _ _ _ _ H1 H2) as [E|E]; [exact E|]. pose proof (hr_pos _ R _ _ H1). pose proof (hr_pos _ R _ _ H2). lia. }
  pose proof (hr_nodup _ R) as ND. clear R. induction ND as [|x h Hx ND IH]; [constructor|]. rewrite fmap_cons. constructor.
  - intros Hin. apply elem_of_list_fmap in Hin as (y & E & Hy). apply Hx. rewrite (Hinj x y); [exact Hy|left|right; exact Hy|exact E].
  - apply IH. intros a b Ha Hb. apply Hinj; right; assumption.
Qed.
Lemma hrep_perm h h' : h ≡ₚ h' -> hrep h -> hrep h'.
Proof.
  intros E R. split.
  - intros q s. rewrite <- E. apply R.
  - rewrite <- E. apply R.
  - intros q s q' s'. rewrite <- !E. apply R.
Qed.
Lemma in_block_elem h p n : in_block h p n = true <-> exists q s, (q, s) ∈ h /\ q <= p /\ p + n <= q + s.
Proof.
  unfold in_block. rewrite existsb_exists. split.
  - intros ([q s] & Hin & Hc). exists q, s. split; [apply elem_of_list_In; exact Hin|lia].
  - intros (q & s & Hin & Hc). exists (q, s). split; [apply elem_of_list_In; exact Hin|lia].
Qed.

(** ** the whole state against the book *)
Definition of_type (t : mtype) (l : list block) : list (Z * Z) := fst <$> filter (fun x => x.2 = t) l.
Lemma of_type_elem t l p n : (p, n) ∈ of_type t l <-> (p, n, t) ∈ l.
Proof.
  unfold of_type. rewrite elem_of_list_fmap. split.
  - intros ([[q m] t'] & E & H). apply elem_of_list_filter in H as [H1 H2]. cbn in *. subst. injection E as -> ->. exact H2.
  - intros H. exists (p, n, t). split; [reflexivity|]. apply elem_of_list_filter. auto.
Qed.
Lemma of_type_keys t l p : p ∈ keys (of_type t l) <-> known l p t.
Proof.
  rewrite elem_of_list_fmap. unfold known. split.
  - intros ([q n] & -> & H). exists n. apply of_type_elem. exact H.
  - intros [n H]. exists (p, n). split; [reflexivity|]. apply of_type_elem. exact H.
Qed.
Lemma of_type_cons_eq t p n l : of_type t ((p, n, t) :: l) = (p, n) :: of_type t l.
Proof. unfold of_type. rewrite filter_cons. cbn [snd]. rewrite decide_True by reflexivity. reflexivity. Qed.
Lemma of_type_cons_ne t t' p n l : t <> t' -> of_type t ((p, n, t') :: l) = of_type t l.
Proof. intros H. unfold of_type. rewrite filter_cons. cbn [snd]. rewrite decide_False by congruence. reflexivity. Qed.
Lemma of_type_forget_eq t p l : of_type t (forget l p t) = filter (fun x => x.1 <> p) (of_type t l).
Proof.
  unfold of_type, forget. induction l as [|[[q n] t'] l IH]; [reflexivity|]. rewrite (filter_cons _ (q, n, t')). cbn [fst snd].
  destruct (decide (t' = t)) as [->|Ht].
  - destruct (decide (~ (q = p /\ t = t))) as [H|H].
    + rewrite !filter_cons. cbn [fst snd]. rewrite !(decide_True (P := t = t)) by reflexivity. rewrite !fmap_cons, filter_cons. cbn [fst]. rewrite decide_True by tauto. f_equal. exact IH.
    + rewrite filter_cons. cbn [fst snd]. rewrite !(decide_True (P := t = t)) by reflexivity. rewrite !fmap_cons, filter_cons. cbn [fst]. rewrite decide_False by tauto. exact IH.
  - rewrite decide_True by tauto. rewrite !filter_cons. cbn [fst snd]. rewrite !(decide_False (P := t' = t)) by exact Ht. exact IH.
Qed.
Lemma of_type_forget_ne t t' p l : t <> t' -> of_type t (forget l p t') = of_type t l.
Proof.
  intros Ht. unfold of_type, forget. f_equal. induction l as [|[[q n] u] l IH]; [reflexivity|]. rewrite !filter_cons. cbn [fst snd].
  destruct (decide (u = t)) as [->|Hu]; destruct (decide (~ (q = p /\ _ = t'))) as [H|H]; rewrite ?filter_cons; cbn [snd]; rewrite ?IH.
  - rewrite decide_True by reflexivity. f_equal. exact IH.
  - exfalso. apply H. intros [_ E]. congruence.
  - rewrite decide_False by exact Hu. exact IH.
  - exact IH.
Qed.
Lemma is_known_spec l p t : is_known l p t = bool_decide (p ∈ keys (of_type t l)).
Proof.
  apply eq_true_iff_eq. rewrite bool_decide_eq_true, of_type_keys. unfold is_known, known. rewrite existsb_exists. split.
  - intros ([[q n] t'] & Hin & Hc). apply andb_true_iff in Hc as [H1 H2]. apply bool_decide_eq_true in H1, H2. subst. exists n. apply elem_of_list_In. exact Hin.
  - intros [n Hn]. exists (p, n, t). split; [apply elem_of_list_In; exact Hn|]. rewrite !bool_decide_eq_true_2 by reflexivity. reflexivity.
Qed.
Lemma forget_unknown l p t : ~ known l p t -> forget l p t = l.
Proof.
  intros H. unfold forget. induction l as [|[[q n] t'] l IH]; [reflexivity|]. rewrite filter_cons. cbn [fst snd]. rewrite decide_True.
  - f_equal. apply IH. intros [m Hm]. apply H. exists m. right. exact Hm.
  - intros [-> ->]. apply H. exists n. left.
Qed.

Record srep (s : mem) (b : book) : Prop := {
  sr_alloc : forall t, mrep (alloc_mgr s t) (of_type t (live b));
  sr_sizes : forall t, mrep (size_mgr s t) (of_type t (registered b));
  sr_heap : heap s ≡ₚ (live b).*1;
  sr_hrep : hrep (heap s);
  sr_inv : forall p n, (p, n, invalid) ∉ live b;
  sr_ins : forall t, m_ins (alloc_mgr s t) = Z.of_nat (n_alloc b t);
  sr_del : forall t, m_del (alloc_mgr s t) = Z.of_nat (n_dealloc b t)
}.
Lemma srep0 : srep mem0 book0.
Proof. split; intros; try apply mrep0; try reflexivity. - split; [intros q s H; inversion H|constructor|intros q s q' s' H; inversion H]. - intros H. inversion H. Qed.

Section state.
  Context (malloc : nat -> list (Z * Z) -> Z -> Z) (Hm : malloc_ok malloc).

  Lemma live_heap s b p n t : srep s b -> (p, n, t) ∈ live b -> (p, n) ∈ heap s.
  Proof. intros R H. rewrite (sr_heap _ _ R). apply elem_of_list_fmap. exists (p, n, t). auto. Qed.
  Lemma live_type_unique s b p n n' t t' : srep s b -> (p, n, t) ∈ live b -> (p, n', t') ∈ live b -> (n, t) = (n', t').
  Proof.
    intros R H1 H2. pose proof (hrep_keys _ (sr_hrep _ _ R)) as ND. rewrite (sr_heap _ _ R) in ND. clear R.
    induction (live b) as [|[[q m] u] l IH]; [inversion H1|]. rewrite !fmap_cons in ND. apply NoDup_cons in ND as [N1 N2]. cbn [fst] in N1.
    assert (Hno : forall n t, (q, n, t) ∈ l -> False).
    { intros n0 t0 H. apply N1. apply elem_of_list_fmap. exists (q, n0). split; [reflexivity|]. apply elem_of_list_fmap. exists (q, n0, t0). auto. }
    apply elem_of_cons in H1 as [E1|H1]; apply elem_of_cons in H2 as [E2|H2].
    - congruence.
    - injection E1 as -> -> ->. exfalso. eauto.
    - injection E2 as -> -> ->. exfalso. eauto.
    - apply IH; assumption.
  Qed.

  Lemma allocate_rejects s n t : n <= 0 \/ t = invalid -> allocate malloc s n t = Ret (s, 0).
  Proof. intros H. unfold allocate. destruct (Z.leb_spec n 0); [reflexivity|]. destruct H as [H| ->]; [lia|reflexivity]. Qed.
  Lemma allocate_rep s b n t : srep s b -> 0 < n -> t <> invalid -> malloc (clock s) (heap s) n <> 0 ->
    exists s', let p := malloc (clock s) (heap s) n in allocate malloc s n t = Ret (s', p) /\ 0 < p /\ (forall q m t', (q, m, t') ∈ live b -> p + n <= q \/ q + m <= p) /\
      srep s' (next_book b (MAlloc n t) (MPtr p)) /\ bytes s' = bytes s /\ heap s' = (p, n) :: heap s /\ size_mgr s' = size_mgr s /\ (forall t', t' <> t -> alloc_mgr s' t' = alloc_mgr s t').
  Proof using All.
    intros R Hn Ht Hp0. cbv zeta. set (p := malloc (clock s) (heap s) n) in *.
    destruct (Hm (clock s) (heap s) n Hn) as [H|[Hp Hfresh]]; [contradiction|]. fold p in Hp, Hfresh.
    assert (Hd : forall q m t', (q, m, t') ∈ live b -> p + n <= q \/ q + m <= p) by (intros q m t' H; apply Hfresh; eapply live_heap; eauto).
    assert (Hnk : forall t', p ∉ keys (of_type t' (live b))).
    { intros t' Hk. apply of_type_keys in Hk as [m Hk]. pose proof (live_heap _ _ _ _ _ R Hk) as Hh. pose proof (hr_pos _ (sr_hrep _ _ R) _ _ Hh). destruct (Hd _ _ _ Hk); lia. }
    destruct (register_rep _ _ p n (sr_alloc _ _ R t) (Hnk t)) as (m' & Em & Rm & Ei & Ed).
    exists (set_alloc (set_heap s ((p, n) :: heap s) (S (clock s))) t m'). split.
    { unfold allocate. rewrite (proj2 (Z.leb_gt _ _)) by lia. unfold backend_malloc. fold p. rewrite (proj2 (Z.eqb_neq _ _)) by lia. destruct t; [| |contradiction]; cbn [alloc_mgr set_heap]; rewrite Em; reflexivity. }
    split; [exact Hp|]. split; [exact Hd|]. split.
    - cbn [next_book]. rewrite decide_False by lia. split; cbn [alloc_mgr size_mgr heap set_alloc set_heap live registered n_alloc n_dealloc].
      + intros t'. destruct (decide (t' = t)) as [->|Hne]; [rewrite of_type_cons_eq; exact Rm|]. rewrite of_type_cons_ne by exact Hne. apply R.
      + apply R.
      + rewrite fmap_cons. cbn [fst]. rewrite (sr_heap _ _ R). reflexivity.
      + split.
        * intros q m H. apply elem_of_cons in H as [[= -> ->] |H]; [lia|]. apply (hr_pos _ (sr_hrep _ _ R) _ _ H).
        * constructor; [|apply R]. intros H. destruct (Hfresh _ _ H); lia.
        * intros q m q' m0 H1 H2. apply elem_of_cons in H1 as [[= -> ->] |H1]; apply elem_of_cons in H2 as [[= -> ->] |H2]; [auto| | |apply (hr_disj _ (sr_hrep _ _ R)); assumption].
          -- right. destruct (Hfresh _ _ H2); lia.
          -- right. destruct (Hfresh _ _ H1); lia.
      + intros q m H. apply elem_of_cons in H as [H|H]; [congruence|]. exact (sr_inv _ _ R _ _ H).
      + intros t'. unfold bump. destruct (decide (t' = t)) as [->|Hne]; [rewrite Ei, (sr_ins _ _ R); lia|apply R].
      + intros t'. destruct (decide (t' = t)) as [->|Hne]; [rewrite Ed|]; apply R.
    - cbn. split; [reflexivity|]. split; [reflexivity|]. split; [reflexivity|]. intros t' Hne. rewrite decide_False by exact Hne. reflexivity.
  Qed.

  Lemma deallocate_rejects s b p t : srep s b -> ~ known (live b) p t -> deallocate s p t = Ret s.
  Proof.
    intros R H. unfold deallocate. destruct (p =? 0); [reflexivity|]. rewrite (mrep_contains _ _ _ (sr_alloc _ _ R t)). rewrite bool_decide_eq_false_2 by (rewrite of_type_keys; exact H). reflexivity.
  Qed.
  Lemma deallocate_rep s b p t : srep s b -> known (live b) p t ->
    exists s', deallocate s p t = Ret s' /\ srep s' (next_book b (MDealloc p t) MUnit) /\ bytes s' = bytes s /\ size_mgr s' = size_mgr s /\
      (forall q m, (q, m) ∈ heap s' <-> (q, m) ∈ heap s /\ q <> p) /\ (forall t', t' <> t -> alloc_mgr s' t' = alloc_mgr s t').
  Proof using All.
    intros R [n Hk]. assert (Hkk : p ∈ keys (of_type t (live b))) by (apply of_type_keys; exists n; exact Hk).
    assert (Ht : t <> invalid) by (intros ->; exact (sr_inv _ _ R _ _ Hk)).
    pose proof (live_heap _ _ _ _ _ R Hk) as Hh. pose proof (hr_pos _ (sr_hrep _ _ R) _ _ Hh) as Hpos. pose proof (hrep_keys _ (sr_hrep _ _ R)) as NDh.
    destruct (deregister_rep _ _ p (sr_alloc _ _ R t) Hkk) as (m' & Em & Rm & Ei & Ed).
    exists (set_heap (set_alloc s t m') (map_erase (heap s) p) (clock s)). split.
    { unfold deallocate. rewrite (proj2 (Z.eqb_neq _ _)) by lia. rewrite (mrep_contains _ _ _ (sr_alloc _ _ R t)), bool_decide_eq_true_2 by exact Hkk. cbn [negb]. rewrite Em. cbn [obind].
      unfold backend_free. cbn [heap set_alloc clock]. rewrite (proj2 (map_find_elem _ _ _ NDh) Hh). destruct t; [reflexivity|reflexivity|contradiction]. }
    assert (Hel : forall q m, (q, m) ∈ map_erase (heap s) p <-> (q, m) ∈ heap s /\ q <> p).
    { intros q m. rewrite (map_erase_filter _ _ NDh), elem_of_list_filter. cbn [fst]. tauto. }
    split.
    - cbn [next_book]. rewrite is_known_spec, bool_decide_eq_true_2 by exact Hkk. split; cbn [alloc_mgr size_mgr heap set_alloc set_heap live registered n_alloc n_dealloc].
      + intros t'. destruct (decide (t' = t)) as [->|Hne]; [rewrite of_type_forget_eq; exact Rm|]. rewrite of_type_forget_ne by exact Hne. apply R.
      + apply R.
      + rewrite (map_erase_filter _ _ NDh). rewrite (filter_Permutation _ _ _ (sr_heap _ _ R)).
        assert (Hu : forall m t', (p, m, t') ∈ live b -> t' = t) by (intros m t' H; pose proof (live_type_unique _ _ _ _ _ _ _ R H Hk); congruence).
        unfold forget. clear -Hu. induction (live b) as [|[[q m] t'] l IH]; [reflexivity|]. rewrite fmap_cons, !filter_cons. cbn [fst snd].
        assert (IH' : filter (fun x => x.1 <> p) l.*1 ≡ₚ (filter (fun b0 : block => ~ (b0.1.1 = p /\ b0.2 = t)) l).*1) by (apply IH; intros m0 t0 H0; apply (Hu m0); right; exact H0).
        destruct (decide (q <> p)) as [H|H].
        * rewrite decide_True by tauto. rewrite fmap_cons. cbn [fst]. apply perm_skip. exact IH'.
        * rewrite decide_False; [exact IH'|]. intros Hn. apply Hn. split; [destruct (decide (q = p)); [assumption|contradiction]|]. apply (Hu m). destruct (decide (q = p)) as [->|]; [left|contradiction].
      + split.
        * intros q m H. apply Hel in H as [H _]. apply (hr_pos _ (sr_hrep _ _ R) _ _ H).
        * rewrite (map_erase_filter _ _ NDh). apply NoDup_filter. apply R.
        * intros q m q' m0 H1 H2. apply Hel in H1 as [H1 _]. apply Hel in H2 as [H2 _]. apply (hr_disj _ (sr_hrep _ _ R)); assumption.
      + intros q m H. apply elem_of_list_filter in H as [_ H]. exact (sr_inv _ _ R _ _ H).
      + intros t'. destruct (decide (t' = t)) as [->|Hne]; [rewrite Ei|]; apply R.
      + intros t'. unfold bump. destruct (decide (t' = t)) as [->|Hne]; [rewrite Ed, (sr_del _ _ R); lia|apply R].
    - cbn. split; [reflexivity|]. split; [reflexivity|]. split; [exact Hel|]. intros t' Hne. rewrite decide_False by exact Hne. reflexivity.
  Qed.

  Lemma register_memory_rejects s b p n t : srep s b -> p = 0 \/ n <= 0 \/ known (registered b) p t -> register_memory s p n t = Ret s.
  Proof.
    intros R H. unfold register_memory. destruct (Z.eqb_spec p 0); [reflexivity|]. destruct (Z.leb_spec n 0); [reflexivity|]. rewrite (mrep_contains _ _ _ (sr_sizes _ _ R t)).
    rewrite bool_decide_eq_true_2; [reflexivity|]. apply of_type_keys. destruct H as [H|[H|H]]; [contradiction|lia|exact H].
  Qed.
  Lemma register_memory_rep s b p n t : srep s b ->
    exists s', register_memory s p n t = Ret s' /\ srep s' (next_book b (MRegister p n t) MUnit) /\ bytes s' = bytes s /\ heap s' = heap s /\ alloc_mgr s' = alloc_mgr s /\ (forall t', t' <> t -> size_mgr s' t' = size_mgr s t').
  Proof using All.
    intros R. cbn [next_book]. destruct (decide (p = 0 \/ n <= 0)) as [H|H].
    { exists s. split; [apply (register_memory_rejects _ b); [exact R|tauto]|]. auto 10. }
    rewrite is_known_spec. destruct (bool_decide (p ∈ keys (of_type t (registered b)))) eqn:Ek.
    { exists s. apply bool_decide_eq_true, of_type_keys in Ek. split; [apply (register_memory_rejects _ b); [exact R|tauto]|]. auto 10. }
    apply bool_decide_eq_false in Ek. destruct (register_rep _ _ p n (sr_sizes _ _ R t) Ek) as (m' & Em & Rm & _).
    exists (set_sizes s t m'). split.
    { unfold register_memory. rewrite (proj2 (Z.eqb_neq _ _)) by tauto. rewrite (proj2 (Z.leb_gt _ _)) by lia. rewrite (mrep_contains _ _ _ (sr_sizes _ _ R t)), bool_decide_eq_false_2 by exact Ek. rewrite Em. reflexivity. }
    split; [|cbn; split; [reflexivity|]; split; [reflexivity|]; split; [reflexivity|]; intros t' Hne; rewrite decide_False by exact Hne; reflexivity].
    split; cbn [alloc_mgr size_mgr heap set_sizes live registered n_alloc n_dealloc]; try apply R.
    intros t'. destruct (decide (t' = t)) as [->|Hne]; [rewrite of_type_cons_eq; exact Rm|]. rewrite of_type_cons_ne by exact Hne. apply R.
  Qed.
  Lemma deregister_memory_rep s b p t : srep s b ->
    exists s', deregister_memory s p t = Ret s' /\ srep s' (next_book b (MDeregister p t) MUnit) /\ bytes s' = bytes s /\ heap s' = heap s /\ alloc_mgr s' = alloc_mgr s /\ (forall t', t' <> t -> size_mgr s' t' = size_mgr s t') /\
      (~ known (registered b) p t -> s' = s).
  Proof using All.
    intros R. cbn [next_book]. unfold deregister_memory. rewrite (mrep_contains _ _ _ (sr_sizes _ _ R t)). destruct (bool_decide (p ∈ keys (of_type t (registered b)))) eqn:Ek.
    - apply bool_decide_eq_true in Ek. cbn [negb]. destruct (deregister_rep _ _ p (sr_sizes _ _ R t) Ek) as (m' & Em & Rm & _). rewrite Em. cbn [obind]. exists (set_sizes s t m'). split; [reflexivity|].
      split; [|cbn; split; [reflexivity|]; split; [reflexivity|]; split; [reflexivity|]; split; [intros t' Hne; rewrite decide_False by exact Hne; reflexivity|]; intros H; exfalso; apply H, of_type_keys; exact Ek].
      split; cbn [alloc_mgr size_mgr heap set_sizes live registered n_alloc n_dealloc]; try apply R.
      intros t'. destruct (decide (t' = t)) as [->|Hne]; [rewrite of_type_forget_eq; exact Rm|]. rewrite of_type_forget_ne by exact Hne. apply R.
    - apply bool_decide_eq_false in Ek. rewrite of_type_keys in Ek. cbn [negb]. exists s. split; [reflexivity|]. split; [|auto 10]. rewrite (forget_unknown _ _ _ Ek). destruct b. exact R.
  Qed.

  Lemma inside_in_block s b t p n : srep s b -> inside_live b t p n -> in_block (heap s) p n = true.
  Proof. intros R (q & m & H1 & H2). apply in_block_elem. exists q, m. split; [eapply live_heap; eauto|exact H2]. Qed.
  Lemma submemory_inside s b t p n : srep s b -> 0 < n -> (contains_submemory (alloc_mgr s t) p n = true <-> inside_live b t p n).
  Proof.
    intros R Hn. rewrite (submemory_rep _ _ _ _ (sr_alloc _ _ R t) Hn). unfold inside_live. split; intros (q & m & H1 & H2); exists q, m; (split; [|exact H2]); apply of_type_elem; exact H1.
  Qed.
  Lemma srep_bytes s b f : srep s b -> srep (set_bytes s f) b.
  Proof. intros []. split; assumption. Qed.
  (** copies of a positive number of bytes between non-overlapping ranges *)
  Lemma mem_copy_rep s b dst src n dt st : srep s b -> 0 < n < 2 ^ 63 -> dst + n <= src \/ src + n <= dst ->
    exists s', mem_copy s dst src n dt st false = Ret s' /\ srep s' b /\
      (~ (inside_live b dt dst n /\ inside_live b st src n) -> s' = s) /\
      (inside_live b dt dst n -> inside_live b st src n ->
        (forall i, 0 <= i < n -> bytes s' (dst + i) = bytes s (src + i)) /\ (forall x, ~ dst <= x < dst + n -> bytes s' x = bytes s x) /\
        heap s' = heap s /\ alloc_mgr s' = alloc_mgr s /\ size_mgr s' = size_mgr s).
  Proof using All.
    intros R Hn Hov. unfold mem_copy. cbn [negb andb].
    destruct (contains_submemory (alloc_mgr s dt) dst n) eqn:E1; cbn [negb].
    2: { exists s. split; [reflexivity|]. split; [exact R|]. split; [auto|]. intros H. apply (submemory_inside _ _ _ _ _ R (proj1 Hn)) in H. congruence. }
    destruct (contains_submemory (alloc_mgr s st) src n) eqn:E2; cbn [negb].
    2: { exists s. split; [reflexivity|]. split; [exact R|]. split; [auto|]. intros _ H. apply (submemory_inside _ _ _ _ _ R (proj1 Hn)) in H. congruence. }
    apply (submemory_inside _ _ _ _ _ R (proj1 Hn)) in E1, E2.
    assert (Hdt : dt <> invalid). { intros ->. destruct E1 as (q & m & H & _). exact (sr_inv _ _ R _ _ H). }
    assert (Hst : st <> invalid). { intros ->. destruct E2 as (q & m & H & _). exact (sr_inv _ _ R _ _ H). }
    assert (Eb : backend_memcpy s dst src n = Ret (set_bytes s (fun x => if (dst <=? x) && (x <? dst + n) then bytes s (src + (x - dst)) else bytes s x))).
    { unfold backend_memcpy. rewrite (Z.mod_small n) by lia. rewrite (proj2 (Z.eqb_neq _ _)) by lia. rewrite (inside_in_block _ _ _ _ _ R E1), (inside_in_block _ _ _ _ _ R E2). cbn [andb].
      replace ((dst + n <=? src) || (src + n <=? dst)) with true by lia. reflexivity. }
    eexists. split; [destruct dt, st; try contradiction; exact Eb|]. split; [apply srep_bytes; exact R|]. split; [tauto|]. intros _ _. cbn [bytes set_bytes heap alloc_mgr size_mgr]. split; [|split; [|auto]].
    - intros i Hi. replace ((dst <=? dst + i) && (dst + i <? dst + n)) with true by lia. f_equal. lia.
    - intros x Hx. replace ((dst <=? x) && (x <? dst + n)) with false by lia. reflexivity.
  Qed.
  Lemma mem_copy_zero s b dst src dt st : srep s b -> mem_copy s dst src 0 dt st false = Ret s.
  Proof. intros R. unfold mem_copy. destruct (negb false && _); [reflexivity|]. destruct (negb false && _); [reflexivity|]. unfold backend_memcpy. rewrite Z.mod_0_l by lia. destruct dt, st; reflexivity. Qed.

  Lemma size_type_rep s b p : srep s b -> res_ok b (MTypeOf p) (MType (get_dynamic_memory_type s p)) /\ res_ok b (MSizeBytes p) (MNum (size_bytes s p)).
  Proof using All.
    intros R. unfold size_bytes, get_dynamic_memory_type. rewrite (mrep_contains _ _ _ (sr_sizes _ _ R device)), (mrep_contains _ _ _ (sr_sizes _ _ R host)).
    assert (Hsz : forall t n, (p, n, t) ∈ registered b -> find_size (size_mgr s t) p = n).
    { intros t n H. apply of_type_elem in H. unfold find_size. rewrite (proj2 (mrep_find _ _ _ _ (sr_sizes _ _ R t)) H). reflexivity. }
    assert (Hno : forall t, ~ known (registered b) p t -> find_size (size_mgr s t) p = 0).
    { intros t H. unfold find_size. destruct (map_find (m_ptrs (size_mgr s t)) p) as [n|] eqn:E; [|reflexivity]. apply (mrep_find _ _ _ _ (sr_sizes _ _ R t)), of_type_elem in E. exfalso. apply H. exists n. exact E. }
    case_bool_decide as H1; rewrite of_type_keys in H1.
    { cbn [res_ok]. split; [exact H1|]. split; [intros m Hmm; apply Hsz; exact Hmm|]. split; [contradiction|]. split; [contradiction|]. intros H. exfalso. apply (H device). exact H1. }
    case_bool_decide as H2; rewrite of_type_keys in H2; cbn [res_ok].
    { split; [auto|]. split; [intros m Hmm; exfalso; apply H1; exists m; exact Hmm|]. split; [intros _ m Hmm; apply Hsz; exact Hmm|]. split; [contradiction|]. intros H. exfalso. apply (H host). exact H2. }
    split; [auto|]. split; [intros m Hmm; exfalso; apply H1; exists m; exact Hmm|]. split; [intros _ m Hmm; exfalso; apply H2; exists m; exact Hmm|]. split; [intros _ _ m Hmm; apply Hsz; exact Hmm|].
    intros H. apply Hno. apply H.
  Qed.

  Context (Hnf : never_fails malloc).
  Lemma mem_step_rep s b op : srep s b -> mop_ok op -> exists s' r, mem_step malloc s op = Ret (s', r) /\ res_ok b op r /\ srep s' (next_book b op r).
  Proof using All.
    intros R Hop. destruct op as [n t|p t|p n t|p t|dst src n dt st|p|p|t]; cbn [mem_step].
    - destruct (decide (n <= 0 \/ t = invalid)) as [H|H].
      + exists s, (MPtr 0). rewrite (allocate_rejects _ _ _ H). split; [reflexivity|]. split; [cbn; split; [reflexivity|]; intros Hn Ht; destruct H; [lia|contradiction]|]. exact R.
      + assert (Hn : 0 < n) by (destruct (Z.leb_spec n 0); [tauto|lia]). assert (Ht : t <> invalid) by tauto.
        destruct (allocate_rep s b n t R Hn Ht (Hnf _ _ _)) as (s' & E & Hp & Hd & R' & _). rewrite E. cbn [obind]. eexists _, _. split; [reflexivity|]. split; [|exact R']. cbn. split; [tauto|]. auto.
    - destruct (is_known (live b) p t) eqn:Ek.
      + rewrite is_known_spec in Ek. apply bool_decide_eq_true, of_type_keys in Ek. destruct (deallocate_rep s b p t R Ek) as (s' & E & R' & _). rewrite E. cbn [obind]. exists s', MUnit. split; [reflexivity|]. split; [exact I|exact R'].
      + exists s, MUnit. pose proof Ek as Ek'. rewrite is_known_spec in Ek. apply bool_decide_eq_false in Ek. rewrite of_type_keys in Ek. rewrite (deallocate_rejects _ _ _ _ R Ek). split; [reflexivity|]. split; [exact I|]. cbn [next_book]. rewrite Ek'. exact R.
    - destruct (register_memory_rep s b p n t R) as (s' & E & R' & _). rewrite E. exists s', MUnit. split; [reflexivity|]. split; [exact I|exact R'].
    - destruct (deregister_memory_rep s b p t R) as (s' & E & R' & _). rewrite E. exists s', MUnit. split; [reflexivity|]. split; [exact I|exact R'].
    - destruct Hop as [Hn Hov]. destruct (Z.eq_dec n 0) as [->|Hne].
      + rewrite (mem_copy_zero _ _ _ _ _ _ R). exists s, MUnit. split; [reflexivity|]. split; [exact I|exact R].
      + destruct (mem_copy_rep s b dst src n dt st R ltac:(lia) Hov) as (s' & E & R' & _). rewrite E. exists s', MUnit. split; [reflexivity|]. split; [exact I|exact R'].
    - eexists _, _. split; [reflexivity|]. split; [apply size_type_rep; exact R|exact R].
    - eexists _, _. split; [reflexivity|]. split; [apply size_type_rep; exact R|exact R].
    - eexists _, _. split; [reflexivity|]. split; [|exact R]. cbn. split; apply R.
  Qed.
  Lemma mem_run_rep ops : Forall mop_ok ops -> forall s b, srep s b -> exists s' rs, mem_run malloc s ops = Ret (s', rs) /\ results_ok b ops rs /\ srep s' (book_after b ops rs).
  Proof using All.
    induction 1 as [|op ops Hop _ IH]; intros s b R; [exists s, []; cbn; auto|].
    destruct (mem_step_rep s b op R Hop) as (s1 & r & E1 & H1 & R1). destruct (IH s1 _ R1) as (s2 & rs & E2 & H2 & R2).
    exists s2, (r :: rs). cbn [mem_run]. rewrite E1. cbn [obind]. rewrite E2. cbn. auto.
  Qed.
End state.
