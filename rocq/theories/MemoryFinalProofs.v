(** The memory theorems, in the form in which MemoryProps.v states them. *)
From Verif Require Import Base Conc MemoryModel MemorySpec MemoryProofs MemoryArrayProofs.

Lemma first_fit_bound h q s c n : (q, s) ∈ h -> q + s <= first_fit c h n.
Proof.
  unfold first_fit. induction h as [|[q' s'] h IH]; intros H; [inversion H|]. cbn [fold_right]. apply elem_of_cons in H as [[= -> ->] |H]; [lia|]. specialize (IH H). lia.
Qed.
Lemma first_fit_pos c h n : 8 <= first_fit c h n.
Proof. unfold first_fit. induction h as [|[q' s'] h IH]; cbn [fold_right]; lia. Qed.
Lemma first_fit_ok : malloc_ok first_fit /\ never_fails first_fit.
Proof.
  split.
  - intros c h n Hn. right. pose proof (first_fit_pos c h n). split; [lia|]. intros q s H'. right. eapply first_fit_bound. exact H'.
  - intros c h n. pose proof (first_fit_pos c h n). lia.
Qed.
Lemma fails_first_ok : malloc_ok fails_first.
Proof. intros [|c] h n Hn; [left; reflexivity|]. exact (proj1 first_fit_ok (S c) h n Hn). Qed.

Section final.
  Context (malloc : nat -> list (Z * Z) -> Z -> Z) (Hm : malloc_ok malloc) (Hnf : never_fails malloc).

  Lemma reachable_srep s b : reachable_mem malloc s b -> srep s b.
  Proof using All.
    intros (ops & rs & Ho & E & ->). destruct (mem_run_rep malloc Hm Hnf ops Ho mem0 book0 srep0) as (s' & rs' & E' & _ & R). rewrite E in E'. injection E' as <- <-. exact R.
  Qed.
  Lemma live_count_of_type b t : live_count b t = length (of_type t (live b)).
  Proof. unfold live_count, of_type. rewrite fmap_length. reflexivity. Qed.

  Lemma history_counts ops : Forall mop_ok ops -> exists s rs, mem_run malloc mem0 ops = Ret (s, rs) /\ results_ok book0 ops rs /\
    let b := book_after book0 ops rs in forall t,
      allocation_count s t = Z.of_nat (n_alloc b t) /\ deallocation_count s t = Z.of_nat (n_dealloc b t) /\
      allocation_count s t - deallocation_count s t = Z.of_nat (live_count b t).
  Proof using All.
    intros Ho. destruct (mem_run_rep malloc Hm Hnf ops Ho mem0 book0 srep0) as (s & rs & E & Hr & R). exists s, rs. split; [exact E|]. split; [exact Hr|]. cbv zeta. intros t.
    split; [apply R|]. split; [apply R|]. unfold allocation_count, deallocation_count. rewrite (mr_count _ _ (sr_alloc _ _ R t)), live_count_of_type. reflexivity.
  Qed.
  Lemma rejected_calls s b : reachable_mem malloc s b ->
    (forall n t, n <= 0 \/ t = invalid -> allocate malloc s n t = Ret (s, 0)) /\ (forall p t, ~ known (live b) p t -> deallocate s p t = Ret s).
  Proof using All. intros H. pose proof (reachable_srep _ _ H) as R. split; [intros; apply allocate_rejects; assumption|intros; apply (deallocate_rejects _ b); assumption]. Qed.

  Lemma sizes_types s b p : reachable_mem malloc s b ->
    (forall n t, t <> invalid -> (p, n, t) ∈ registered b -> (forall t', t' <> t -> ~ known (registered b) p t') -> size_bytes s p = n /\ get_dynamic_memory_type s p = t) /\
    ((forall t, ~ known (registered b) p t) -> size_bytes s p = 0 /\ get_dynamic_memory_type s p = invalid) /\
    (forall sz, 0 < sz -> array_size sz s p = (if size_bytes s p mod sz =? 0 then size_bytes s p / sz else 0)).
  Proof using All.
    intros H. pose proof (reachable_srep _ _ H) as R. destruct (size_type_rep malloc Hm s b p R) as [H1 H2]. cbn [res_ok] in H1, H2. split; [|split].
    - intros n t Ht Hin Hu. assert (Hk : known (registered b) p t) by (exists n; exact Hin). split.
      + destruct H2 as (A & B & C & _). destruct t; [apply A; exact Hin|apply B; [apply Hu; discriminate|exact Hin]|contradiction].
      + destruct t, (get_dynamic_memory_type s p); try reflexivity; try contradiction; exfalso; try tauto. exact (Hu device ltac:(discriminate) H1).
    - intros Hn. split; [apply H2; exact Hn|]. destruct (get_dynamic_memory_type s p); [exfalso; exact (Hn device H1)|exfalso; exact (Hn host (proj1 H1))|reflexivity].
    - intros sz Hsz. unfold array_size. destruct (size_bytes s p mod sz =? 0); reflexivity.
  Qed.

  Lemma range_check s b p n t : reachable_mem malloc s b -> 0 < n -> (contains_submemory (alloc_mgr s t) p n = true <-> inside_live b t p n).
  Proof using All. intros H. apply submemory_inside. apply reachable_srep. exact H. Qed.
  Lemma checked_copy s b dst src n dt st : reachable_mem malloc s b -> 0 <= n < 2 ^ 63 -> dst + n <= src \/ src + n <= dst ->
    exists s', mem_copy s dst src n dt st false = Ret s' /\ alloc_mgr s' = alloc_mgr s /\ size_mgr s' = size_mgr s /\ heap s' = heap s /\
      (forall x, ~ dst <= x < dst + n -> bytes s' x = bytes s x) /\
      (~ (inside_live b dt dst n /\ inside_live b st src n) -> forall x, bytes s' x = bytes s x) /\
      (inside_live b dt dst n -> inside_live b st src n -> forall i, 0 <= i < n -> bytes s' (dst + i) = bytes s (src + i)).
  Proof using All.
    intros H Hn Hov. pose proof (reachable_srep _ _ H) as R. destruct (Z.eq_dec n 0) as [->|Hne].
    { exists s. rewrite (mem_copy_zero s b) by exact R. repeat split; auto. intros; lia. }
    assert (Hpos : 0 < n) by lia. destruct (mem_copy_rep malloc Hm s b dst src n dt st R ltac:(lia) Hov) as (s' & E & R' & Hno & Hyes). exists s'. split; [exact E|].
    destruct (contains_submemory (alloc_mgr s dt) dst n) eqn:E1; [destruct (contains_submemory (alloc_mgr s st) src n) eqn:E2|].
    - apply (submemory_inside _ _ _ _ _ R) in E1; [|lia]. apply (submemory_inside _ _ _ _ _ R) in E2; [|lia]. destruct (Hyes E1 E2) as (C1 & C2 & C3 & C4 & C5).
      split; [exact C4|]. split; [exact C5|]. split; [exact C3|]. split; [exact C2|]. split; [tauto|]. auto.
    - assert (Hn2 : ~ inside_live b st src n) by (intros Hx; apply (submemory_inside _ _ _ _ _ R Hpos) in Hx; congruence). rewrite Hno by tauto. repeat split; auto. tauto.
    - assert (Hn1 : ~ inside_live b dt dst n) by (intros Hx; apply (submemory_inside _ _ _ _ _ R Hpos) in Hx; congruence). rewrite Hno by tauto. repeat split; auto. tauto.
  Qed.
  Lemma freed_once s b p t : reachable_mem malloc s b -> exists s', deallocate s p t = Ret s' /\ deallocate s' p t = Ret s' /\
    (known (live b) p t -> deallocation_count s' t = deallocation_count s t + 1) /\ (~ known (live b) p t -> s' = s).
  Proof using All.
    intros H. pose proof (reachable_srep _ _ H) as R. destruct (known_dec (live b) p t) as [Hk|Hk].
    - destruct (deallocate_rep malloc Hm s b p t R Hk) as (s' & E & R' & _). exists s'. split; [exact E|]. cbn [next_book] in R'. rewrite (is_known_true _ _ _ Hk) in R'. split; [|split; [|contradiction]].
      + apply (deallocate_rejects _ _ _ _ R'). cbn. intros [n Hn]. apply forget_elem in Hn. cbn in Hn. tauto.
      + intros _. unfold deallocation_count. rewrite (sr_del _ _ R'), (sr_del _ _ R). cbn. unfold bump. rewrite decide_True by reflexivity. lia.
    - exists s. rewrite (deallocate_rejects _ _ _ _ R Hk). repeat split; auto. tauto.
  Qed.
End final.

(** a failing backend: the first failure *)
Lemma first_failure malloc s b n t : srep s b -> 0 < n -> t <> invalid -> malloc (clock s) (heap s) n = 0 ->
  exists s', allocate malloc s n t = Ret (s', 0) /\ heap s' = heap s /\ bytes s' = bytes s /\ size_mgr s' = size_mgr s /\ (forall t', t' <> t -> alloc_mgr s' t' = alloc_mgr s t') /\
    allocation_count s' t = allocation_count s t + 1 /\ contains_memory (alloc_mgr s' t) 0 = true /\ mgr_valid (alloc_mgr s' t) = true.
Proof.
  intros R Hn Ht Hz. assert (H0 : 0 ∉ keys (of_type t (live b))).
  { rewrite of_type_keys. intros [m Hk]. pose proof (live_heap _ _ _ _ _ R Hk) as Hh. pose proof (hr_pos _ (sr_hrep _ _ R) _ _ Hh). lia. }
  destruct (register_rep _ _ 0 n (sr_alloc _ _ R t) H0) as (m' & Em & Rm & Ei & Ed).
  exists (set_alloc (set_heap s (heap s) (S (clock s))) t m'). split.
  { unfold allocate. rewrite (proj2 (Z.leb_gt _ _)) by lia. unfold backend_malloc. rewrite Hz. cbn [Z.eqb]. destruct t; [| |contradiction]; cbn [alloc_mgr set_heap]; rewrite Em; reflexivity. }
  cbn. split; [reflexivity|]. split; [reflexivity|]. split; [reflexivity|]. split; [intros t' Hne; rewrite decide_False by exact Hne; reflexivity|].
  unfold allocation_count. cbn. rewrite decide_True by reflexivity. split; [exact Ei|]. split; [|eapply mrep_valid; exact Rm].
  rewrite (mrep_contains _ _ _ Rm). apply bool_decide_eq_true_2. rewrite fmap_cons. left.
Qed.
(** an entry for nullptr stays forever *)
Lemma map_find_set l p q n : q <> p -> map_find (map_set l p n) q = map_find l q.
Proof.
  intros Hne. induction l as [|[a m] l IH]; cbn [map_set map_find]; [rewrite (proj2 (Z.eqb_neq _ _)) by exact Hne; reflexivity|].
  destruct (p <? a); cbn [map_find]; [rewrite (proj2 (Z.eqb_neq q p)) by exact Hne; reflexivity|]. destruct (Z.eqb_spec p a) as [->|Hpa]; cbn [map_find].
  - rewrite (proj2 (Z.eqb_neq q a)) by exact Hne. reflexivity.
  - destruct (q =? a); [reflexivity|exact IH].
Qed.
Lemma map_find_erase l p q : q <> p -> map_find (map_erase l p) q = map_find l q.
Proof.
  intros Hne. induction l as [|[a m] l IH]; cbn [map_erase map_find]; [reflexivity|]. destruct (Z.eqb_spec p a) as [->|Hpa]; cbn [map_find]; [rewrite (proj2 (Z.eqb_neq q a)) by exact Hne; reflexivity|].
  destruct (q =? a); [reflexivity|exact IH].
Qed.
Definition null_entry (t : mtype) (s : mem) : Prop := contains_memory (alloc_mgr s t) 0 = true /\ mgr_valid (alloc_mgr s t) = true.
Lemma null_register m p n m' : contains_memory m 0 = true -> mgr_register m p n = Ret m' -> contains_memory m' 0 = true /\ mgr_valid m' = true.
Proof.
  intros H. unfold mgr_register. destruct (contains_memory m p) eqn:Ep; cbn [negb]; [discriminate|]. destruct (mgr_valid m); [|discriminate]. cbv zeta.
  case_match; [|discriminate]. case_match eqn:Ev; [|discriminate]. intros [= <-]. split; [|exact Ev].
  unfold contains_memory in *. cbn [m_ptrs]. destruct (Z.eq_dec 0 p) as [<-|Hne]; [rewrite Ep in H; discriminate|]. rewrite map_find_set by exact Hne. exact H.
Qed.
Lemma null_deregister m p m' : p <> 0 -> contains_memory m 0 = true -> mgr_deregister m p = Ret m' -> contains_memory m' 0 = true /\ mgr_valid m' = true.
Proof.
  intros Hp H. unfold mgr_deregister. destruct (contains_memory m p) eqn:Ep; [|discriminate]. destruct (mgr_valid m); [|discriminate]. cbv zeta.
  case_match; [|discriminate]. case_match eqn:Ev; [|discriminate]. intros [= <-]. split; [|exact Ev].
  unfold contains_memory in *. cbn [m_ptrs]. rewrite map_find_erase by congruence. exact H.
Qed.
Lemma null_step malloc t s op s' r : null_entry t s -> mem_step malloc s op = Ret (s', r) -> null_entry t s'.
Proof.
  intros N. destruct op; cbn [mem_step].
  - unfold allocate. destruct (n <=? 0); [intros [= <- _]; exact N|]. unfold backend_malloc.
    assert (Hgen : forall t0, (let '(s0, a) := (set_heap s (if malloc (clock s) (heap s) n =? 0 then heap s else (malloc (clock s) (heap s) n, n) :: heap s) (S (clock s)), malloc (clock s) (heap s) n) in
      let! m := mgr_register (alloc_mgr s0 t0) a n in Ret (set_alloc s0 t0 m, a)) = Ret (s', match r with MPtr p => p | _ => 0 end) -> null_entry t s').
    { intros t1. cbv beta iota. cbn [alloc_mgr set_heap]. destruct (mgr_register (alloc_mgr s t1) _ n) as [m| |] eqn:Em; cbn [obind]; try discriminate. intros [= <- _]. unfold null_entry. cbn.
      destruct (decide (t = t1)) as [->|Hne]; [|exact N]. eapply null_register; [apply N|exact Em]. }
    destruct t0; [| |intros [= <- _]; exact N]; intros H; (eapply Hgen; match type of H with context [mgr_register ?a ?b ?c] => destruct (mgr_register a b c) eqn:Em; cbn [obind] in *; try discriminate end; injection H as <- <-; cbn [alloc_mgr set_heap] in Em |- *; rewrite Em; reflexivity).
  - unfold deallocate. destruct (Z.eqb_spec p 0); [intros [= <- _]; exact N|]. destruct (contains_memory (alloc_mgr s t0) p); cbn [negb]; [|intros [= <- _]; exact N].
    destruct (mgr_deregister (alloc_mgr s t0) p) as [m| |] eqn:Em; cbn [obind]; try discriminate.
    assert (N' : null_entry t (set_alloc s t0 m)). { unfold null_entry. cbn. destruct (decide (t = t0)) as [->|Hne]; [|exact N]. eapply null_deregister; [eassumption|apply N|exact Em]. }
    unfold backend_free. cbn [heap set_alloc clock]. destruct t0; try (destruct (map_find (heap s) p)); cbn [obind]; try discriminate; intros [= <- _]; exact N'.
  - unfold register_memory. destruct (p =? 0); [intros [= <- _]; exact N|]. destruct (n <=? 0); [intros [= <- _]; exact N|]. destruct (contains_memory (size_mgr s t0) p); [intros [= <- _]; exact N|].
    destruct (mgr_register _ _ _); cbn [obind]; try discriminate. intros [= <- _]. exact N.
  - unfold deregister_memory. destruct (negb _); [intros [= <- _]; exact N|]. destruct (mgr_deregister _ _); cbn [obind]; try discriminate. intros [= <- _]. exact N.
  - unfold mem_copy, backend_memcpy. repeat case_match; intros E; try discriminate; injection E as <- _; exact N.
  - intros [= <- _]. exact N.
  - intros [= <- _]. exact N.
  - intros [= <- _]. exact N.
Qed.
Lemma null_run malloc t ops : forall s s' rs, null_entry t s -> mem_run malloc s ops = Ret (s', rs) -> null_entry t s'.
Proof.
  induction ops as [|op ops IH]; intros s s' rs N; cbn [mem_run]; [intros [= <- _]; exact N|].
  destruct (mem_step malloc s op) as [[s1 r]| |] eqn:E1; cbn [obind]; try discriminate. destruct (mem_run malloc s1 ops) as [[s2 rs2]| |] eqn:E2; cbn [obind]; try discriminate. intros [= <- _].
  eapply IH; [|exact E2]. eapply null_step; eassumption.
Qed.
Lemma null_unbalanced t s : null_entry t s -> 0 < allocation_count s t - deallocation_count s t.
Proof.
  intros [H1 H2]. unfold mgr_valid, mgr_size in H2. apply Z.eqb_eq in H2. unfold allocation_count, deallocation_count. rewrite H2.
  unfold contains_memory in H1. destruct (m_ptrs (alloc_mgr s t)); [discriminate|cbn [length]; lia].
Qed.

(** ** arrays *)
Section arr.
  Context (malloc : nat -> list (Z * Z) -> Z -> Z) (Hm : malloc_ok malloc) (Hnf : never_fails malloc).
  Context (dc : bool) (ord : nat -> list nat) (Hord : forall n, ord n ≡ₚ seq 0 n).

  Lemma same_reports s b s' b' q : arep s b -> arep s' b' -> (forall n t, (q, n, t) ∈ live b <-> (q, n, t) ∈ live b') ->
    size_bytes s' q = size_bytes s q /\ get_dynamic_memory_type s' q = get_dynamic_memory_type s q.
  Proof using Hm Hnf.
    intros A A' H. destruct (live_or_dead s b q A) as [(n & t & Hq & _)|Hq].
    - destruct (size_bytes_live malloc Hm Hnf s b q n t A Hq) as [-> ->]. apply H in Hq. apply (size_bytes_live malloc Hm Hnf s' b' q n t A' Hq).
    - destruct (size_bytes_dead malloc Hm Hnf s b q A Hq) as [-> ->]. apply (size_bytes_dead malloc Hm Hnf s' b' q A'). intros t [n Hk]. apply (Hq t). exists n. apply H. exact Hk.
  Qed.
  Lemma in_block_live s b x : arep s b -> (in_block (heap s) x 1 = true <-> exists q m t, (q, m, t) ∈ live b /\ q <= x < q + m).
  Proof using.
    intros [R _]. rewrite in_block_elem. split.
    - intros (q & m & H & Hx). rewrite (sr_heap _ _ R) in H. apply elem_of_list_fmap in H as ([[q' m'] t] & [= -> ->] & H). exists q', m', t. split; [exact H|lia].
    - intros (q & m & t & H & Hx). exists q, m. split; [eapply live_heap; eassumption|lia].
  Qed.
  Lemma live_of_type s b p t : arep s b -> t <> invalid -> get_dynamic_memory_type s p = t -> (p, size_bytes s p, t) ∈ live b.
  Proof using Hm Hnf.
    intros A Ht Hg. destruct (live_or_dead s b p A) as [(n & t' & Hq & _)|Hq].
    - destruct (size_bytes_live malloc Hm Hnf s b p n t' A Hq) as [E1 E2]. congruence.
    - destruct (size_bytes_dead malloc Hm Hnf s b p A Hq) as [E1 E2]. congruence.
  Qed.

  Lemma count_live s b t : arep s b -> allocation_count s t - deallocation_count s t = Z.of_nat (live_count b t).
  Proof using. intros [R _]. unfold allocation_count, deallocation_count. rewrite (mr_count _ _ (sr_alloc _ _ R t)). rewrite live_count_of_type. reflexivity. Qed.
  Lemma adds_array_rep sz s b s' b' p n t : 0 < sz -> arep s b -> arep s' b' -> 0 < n -> 0 < p -> (forall q m t', (q, m, t') ∈ live b -> p + n * sz <= q \/ q + m <= p) ->
    live b' = (p, n * sz, t) :: live b -> (forall q m t' x, (q, m, t') ∈ live b -> q <= x < q + m -> bytes s' x = bytes s x) -> adds_array sz s s' p n t.
  Proof using Hm Hnf.
    intros Hsz A A' Hn Hp Hd L F. assert (Hpos : 0 < n * sz) by nia. split; [lia|]. split.
    { destruct (in_block (heap s) p 1) eqn:E; [|reflexivity]. apply (in_block_live _ _ _ A) in E as (q & m & t' & H & Hx). destruct (Hd _ _ _ H); lia. }
    assert (Hin : (p, n * sz, t) ∈ live b') by (rewrite L; left). split; [exact (array_size_live malloc Hm Hnf sz Hsz s' b' p n t A' Hin)|].
    destruct (size_bytes_live malloc Hm Hnf s' b' p _ t A' Hin) as [E1 E2]. split; [exact E1|]. split; [exact E2|]. split.
    { intros q Hq. apply (same_reports s b s' b' q A A'). intros m t'. rewrite L, elem_of_cons. split; [auto|]. intros [[= -> -> ->] |H]; [contradiction|exact H]. }
    split.
    { intros x Hx. apply (in_block_live _ _ _ A) in Hx as (q & m & t' & H & Hx). split; [|eapply F; eassumption]. apply (in_block_live _ _ _ A'). exists q, m, t'. rewrite L. split; [right; exact H|exact Hx]. }
    intros t'. rewrite (count_live _ _ _ A), (count_live _ _ _ A'). unfold live_count. rewrite L, filter_cons. cbn [snd]. destruct (decide (t = t')) as [->|Hne].
    - rewrite decide_True by reflexivity. cbn [length]. rewrite Nat2Z.inj_succ. reflexivity.
    - rewrite decide_False by congruence. rewrite Z.add_0_r. reflexivity.
  Qed.

  Section one.
  Context (ops : list (Z * aop)) (s : mem) (rs : list mres) (Hs : sized ops) (Hrun : arr_run malloc dc ord mem0 ops = Ret (s, rs)).
  Context (sz : Z) (Hsz : 0 < sz).

  Lemma create_device_final n v : 0 < n -> n * sz < 2 ^ 63 -> Z.of_nat (length v) = sz ->
    exists s' p, create_device_array malloc dc ord sz s n v = Ret (s', p) /\ adds_array sz s s' p n device /\ (forall i, Z.of_nat i < n -> element_at sz s' p i v).
  Proof using All.
    intros Hn Hb Hv. destruct (arr_reach malloc Hm Hnf dc ord ops s rs Hs Hrun) as (b & A & F).
    destruct (create_device_rep malloc Hm Hnf dc ord Hord sz Hsz s b n v A Hn Hb Hv) as (s' & p & b' & E & Hp & Hd & A' & L & El & By). exists s', p. split; [exact E|]. split; [|exact El].
    apply (adds_array_rep sz s b s' b'); assumption.
  Qed.
  Lemma create_host_final n v : 0 < n -> n * sz < 2 ^ 63 -> Z.of_nat (length v) = sz ->
    exists s' p, create_host_array malloc ord sz s n v = Ret (s', p) /\ adds_array sz s s' p n host /\ (forall i, Z.of_nat i < n -> element_at sz s' p i v).
  Proof using All.
    intros Hn Hb Hv. destruct (arr_reach malloc Hm Hnf dc ord ops s rs Hs Hrun) as (b & A & F).
    destruct (allocate_filled_rep malloc Hm Hnf ord Hord sz Hsz s b n v host A Hn Hb ltac:(discriminate) Hv) as (s' & p & E & Hp & Hd & A' & H' & El & By). exists s', p. split; [exact E|]. split; [|exact El].
    eapply (adds_array_rep sz s b s' _ p n host Hsz A A' Hn Hp Hd); [reflexivity|]. intros q m t' x Hq Hx. apply By. destruct (Hd _ _ _ Hq); lia.
  Qed.
  Lemma create_nothing n v : n <= 0 -> - 2 ^ 63 <= n * sz -> create_device_array malloc dc ord sz s n v = Ret (s, 0) /\ create_host_array malloc ord sz s n v = Ret (s, 0).
  Proof using All.
    intros Hn Hb. destruct (arr_reach malloc Hm Hnf dc ord ops s rs Hs Hrun) as (b & A & F).
    assert (Ea : forall t, safe_allocate malloc sz s n t = Ret (s, 0)) by (intros t; apply (safe_allocate_zero malloc sz Hsz s b n t A); [left; exact Hn|nia]).
    assert (Eh : create_host_array malloc ord sz s n v = Ret (s, 0)) by (unfold create_host_array, allocate_filled; rewrite Ea; reflexivity). split; [|exact Eh].
    unfold create_device_array. destruct dc; [unfold allocate_filled; rewrite Ea; reflexivity|]. rewrite Eh. cbn [obind]. unfold copy_create_array. rewrite Ea. cbn [obind Z.eqb].
    assert (H0 : forall t, ~ known (live b) 0 t) by (intros t H; pose proof (known_pos _ _ _ _ (proj1 A) H); lia).
    unfold destroy_host_array, deallocate_filled. rewrite (safe_deallocate_unknown malloc Hm sz s b 0 _ host A (H0 host)); [reflexivity|]. rewrite (array_size_dead malloc Hm Hnf sz Hsz s b 0 A H0). lia.
  Qed.

  (** copyCreate: device to host and host to device *)
  Lemma round_trip p n : get_dynamic_memory_type s p = device -> 0 < n -> array_size sz s p = n ->
    exists s1 h s2 d, copy_create_array malloc sz s p n device host false = Ret (s1, h) /\ copy_create_array malloc sz s1 h n host device false = Ret (s2, d) /\
      adds_array sz s s1 h n host /\ adds_array sz s1 s2 d n device /\
      forall i v, Z.of_nat i < n -> Z.of_nat (length v) = sz -> element_at sz s p i v -> element_at sz s1 h i v /\ element_at sz s2 h i v /\ element_at sz s2 d i v /\ element_at sz s2 p i v.
  Proof using All.
    intros Hg Hn Hz. destruct (arr_reach malloc Hm Hnf dc ord ops s rs Hs Hrun) as (b & A & F).
    pose proof (live_of_type s b p device A ltac:(discriminate) Hg) as Hl.
    assert (Hsb : size_bytes s p = n * sz).
    { unfold array_size in Hz. destruct (Z.eqb_spec (size_bytes s p mod sz) 0) as [Em|Em]; cbn [negb] in Hz; [|lia]. pose proof (Z.div_mod (size_bytes s p) sz ltac:(lia)). lia. }
    rewrite Hsb in Hl. pose proof (F _ _ _ Hl) as Hb.
    destruct (copy_create_rep malloc Hm Hnf sz Hsz s b p n device host A Hn Hb ltac:(discriminate)) as (s1 & h & E1 & Hh & Hd1 & A1 & H1 & F1 & F2).
    { exists p, (n * sz). split; [exact Hl|lia]. }
    destruct (copy_create_rep malloc Hm Hnf sz Hsz s1 _ h n host device A1 Hn Hb ltac:(discriminate)) as (s2 & d & E2 & Hd & Hd2 & A2 & H2 & F3 & F4).
    { exists h, (n * sz). split; [left|lia]. }
    exists s1, h, s2, d. split; [exact E1|]. split; [exact E2|]. split.
    { eapply (adds_array_rep sz s b s1 _ h n host Hsz A A1 Hn Hh Hd1); [reflexivity|]. intros q m t' x Hq Hx. apply F2. destruct (Hd1 _ _ _ Hq); lia. }
    split.
    { eapply (adds_array_rep sz s1 _ s2 _ d n device Hsz A1 A2 Hn Hd Hd2); [reflexivity|]. intros q m t' x Hq Hx. apply F4. destruct (Hd2 _ _ _ Hq); lia. }
    intros i v Hi Hv [_ He].
    pose proof (Hd1 _ _ _ Hl) as D1. pose proof (Hd2 p (n * sz) device ltac:(right; exact Hl)) as D2. pose proof (Hd2 h (n * sz) host ltac:(left)) as D3.
    assert (Hh1 : in_block (heap s1) (h + Z.of_nat i * sz) sz = true). { apply in_block_elem. exists h, (n * sz). split; [rewrite H1; left|nia]. }
    assert (Hh2 : in_block (heap s2) (h + Z.of_nat i * sz) sz = true). { apply in_block_elem. exists h, (n * sz). split; [rewrite H2, H1; right; left|nia]. }
    assert (Hdd : in_block (heap s2) (d + Z.of_nat i * sz) sz = true). { apply in_block_elem. exists d, (n * sz). split; [rewrite H2; left|nia]. }
    assert (Hpp : in_block (heap s2) (p + Z.of_nat i * sz) sz = true). { apply in_block_elem. exists p, (n * sz). split; [rewrite H2, H1; do 2 right; eapply live_heap; [exact (proj1 A)|exact Hl]|nia]. }
    assert (B1 : forall j, (j < length v)%nat -> bytes s1 (h + Z.of_nat i * sz + Z.of_nat j) = nth j v 0).
    { intros j Hj. replace (h + Z.of_nat i * sz + Z.of_nat j) with (h + (Z.of_nat i * sz + Z.of_nat j)) by lia. rewrite F1 by nia. rewrite Z.add_assoc. apply He. exact Hj. }
    split; [split; assumption|]. split; [split; [exact Hh2|]; intros j Hj; rewrite F4 by nia; apply B1; exact Hj|]. split; (split; [assumption|]).
    - intros j Hj. replace (d + Z.of_nat i * sz + Z.of_nat j) with (d + (Z.of_nat i * sz + Z.of_nat j)) by lia. rewrite F3 by nia. rewrite Z.add_assoc. apply B1. exact Hj.
    - intros j Hj. rewrite F4 by nia. rewrite F2 by nia. apply He. exact Hj.
  Qed.

  (** destroy *)
  Lemma removes_array_rep s0 b s' b' p n t : arep s0 b -> arep s' b' -> (p, n, t) ∈ live b -> live b' = forget (live b) p t ->
    (forall q m t' x, (q, m, t') ∈ live b -> q <= x < q + m -> bytes s' x = bytes s0 x) -> removes_array s0 s' p t.
  Proof using Hm Hnf.
    intros A A' Hl L F. assert (Hno : forall t', ~ known (live b') p t').
    { intros t' [m Hk]. rewrite L in Hk. apply forget_elem in Hk as [Hk Hk2]. cbn in Hk2. pose proof (live_type_unique s0 b p n m t t' (proj1 A) Hl Hk). apply Hk2. split; [reflexivity|congruence]. }
    destruct (size_bytes_dead malloc Hm Hnf s' b' p A' Hno) as [E1 E2]. destruct (size_bytes_live malloc Hm Hnf s0 b p n t A Hl) as [E3 E4]. split; [exact E1|]. split; [exact E2|]. split; [|split; [|split]].
    - intros q Hq. apply (same_reports s0 b s' b' q A A'). intros m t'. rewrite L, forget_elem. cbn. tauto.
    - intros x. rewrite (in_block_live _ _ _ A), (in_block_live _ _ _ A'), E3. pose proof (sr_hrep _ _ (proj1 A)) as HR. split.
      + intros (q & m & t' & H & Hx). rewrite L in H. apply forget_elem in H as [H H']. cbn in H'. split; [exists q, m, t'; auto|]. intros Hpx.
        destruct (hr_disj _ HR p n q m (live_heap _ _ _ _ _ (proj1 A) Hl) (live_heap _ _ _ _ _ (proj1 A) H)) as [[= -> ->]|Hd]; [|lia].
        apply H'. split; [reflexivity|]. pose proof (live_type_unique s0 b q m m t t' (proj1 A) Hl H). congruence.
      + intros [(q & m & t' & H & Hx) Hnx]. exists q, m, t'. split; [|exact Hx]. rewrite L. apply forget_elem. split; [exact H|]. cbn. intros [-> ->]. pose proof (live_type_unique s0 b p n m t t (proj1 A) Hl H) as [= ->]. lia.
    - intros x Hx. apply (in_block_live _ _ _ A') in Hx as (q & m & t' & H & Hx). rewrite L in H. apply forget_elem in H as [H _]. eapply F; eassumption.
    - intros t'. rewrite (count_live _ _ _ A), (count_live _ _ _ A'). rewrite !live_count_of_type, L. destruct (decide (t' = t)) as [->|Hne]; [|rewrite of_type_forget_ne by exact Hne; lia].
      rewrite of_type_forget_eq. pose proof (mrep_nodup _ _ (sr_alloc _ _ (proj1 A) t)) as ND. rewrite <- map_erase_filter by exact ND.
      assert (Hin : (p, n) ∈ of_type t (live b)) by (apply of_type_elem; exact Hl). pose proof (Permutation_length (map_erase_perm _ _ _ ND Hin)) as El. cbn [length] in El. lia.
  Qed.
  Lemma destroy_device_final opt p : get_dynamic_memory_type s p = device -> exists s', destroy_device_array malloc dc sz opt s p = Ret s' /\ removes_array s s' p device.
  Proof using All.
    intros Hg. destruct (arr_reach malloc Hm Hnf dc ord ops s rs Hs Hrun) as (b & A & F). pose proof (live_of_type s b p device A ltac:(discriminate) Hg) as Hl.
    destruct (destroy_device_rep malloc Hm Hnf dc sz Hsz opt s b p A F) as (s' & b' & E & A' & L & By); [eexists; exact Hl|]. exists s'. split; [exact E|]. eapply removes_array_rep; eassumption.
  Qed.
  Lemma destroy_host_final p : get_dynamic_memory_type s p = host -> exists s', destroy_host_array sz s p = Ret s' /\ removes_array s s' p host.
  Proof using All.
    intros Hg. destruct (arr_reach malloc Hm Hnf dc ord ops s rs Hs Hrun) as (b & A & F). pose proof (live_of_type s b p host A ltac:(discriminate) Hg) as Hl.
    destruct (destroy_host_rep malloc Hm Hnf sz Hsz s b p A F) as (s' & E & A' & By); [eexists; exact Hl|]. exists s'. split; [exact E|]. eapply (removes_array_rep s b s' _ p _ host A A' Hl); [reflexivity|]. intros; congruence.
  Qed.
  (** creating an array and destroying it again *)
  Lemma create_destroy opt n v : 0 < n -> n * sz < 2 ^ 63 -> Z.of_nat (length v) = sz ->
    exists s1 p s2, create_device_array malloc dc ord sz s n v = Ret (s1, p) /\ destroy_device_array malloc dc sz opt s1 p = Ret s2 /\
      heap s2 ≡ₚ heap s /\ (forall t, m_ptrs (alloc_mgr s2 t) = m_ptrs (alloc_mgr s t) /\ m_ptrs (size_mgr s2 t) = m_ptrs (size_mgr s t)) /\
      (forall x, in_block (heap s) x 1 = true -> bytes s2 x = bytes s x).
  Proof using All.
    intros Hn Hb Hv. destruct (arr_reach malloc Hm Hnf dc ord ops s rs Hs Hrun) as (b & A & F).
    destruct (create_device_rep malloc Hm Hnf dc ord Hord sz Hsz s b n v A Hn Hb Hv) as (s1 & p & b1 & E1 & Hp & Hd & A1 & L1 & El & By1).
    assert (Fb : fits63 b1). { intros q m t'. rewrite L1. intros H. apply elem_of_cons in H as [[= -> -> ->] |H]; [lia|exact (F _ _ _ H)]. }
    destruct (destroy_device_rep malloc Hm Hnf dc sz Hsz opt s1 b1 p A1 Fb) as (s2 & b2 & E2 & A2 & L2 & By2); [exists (n * sz); rewrite L1; left|].
    assert (Hnk : ~ known (live b) p device). { intros [m Hkk]. pose proof (live_heap _ _ _ _ _ (proj1 A) Hkk) as Hhp. pose proof (hr_pos _ (sr_hrep _ _ (proj1 A)) _ _ Hhp). destruct (Hd _ _ _ Hkk); nia. }
    assert (L : live b2 = live b). { rewrite L2, L1. unfold forget. rewrite filter_cons. cbn [fst snd]. rewrite decide_False by tauto. apply forget_unknown. exact Hnk. }
    exists s1, p, s2. split; [exact E1|]. split; [exact E2|]. split; [rewrite (sr_heap _ _ (proj1 A2)), (sr_heap _ _ (proj1 A)), L; reflexivity|]. split.
    - assert (Hsame : forall m m' l, mrep m l -> mrep m' l -> m_ptrs m = m_ptrs m').
      { intros m m' l R R'. assert (AS : AntiSymm (=) (fun x y : Z * Z => x.1 < y.1)) by (intros x y H1 H2; lia). eapply (StronglySorted_unique (fun x y : Z * Z => x.1 < y.1)); [apply R|apply R'|rewrite (mr_perm _ _ R), (mr_perm _ _ R'); reflexivity]. }
      intros t. split.
      + apply (Hsame _ _ (of_type t (live b))); [rewrite <- L; apply (proj1 A2)|apply (proj1 A)].
      + apply (Hsame _ _ (of_type t (live b))); [rewrite <- L; rewrite <- (proj2 A2); apply (proj1 A2)|rewrite <- (proj2 A); apply (proj1 A)].
    - intros x Hx. apply (in_block_live _ _ _ A) in Hx as (q & m & t' & H & Hx). rewrite (By2 q m t' x); [eapply By1; eassumption|rewrite L1; right; exact H|exact Hx].
  Qed.
  End one.
End arr.
